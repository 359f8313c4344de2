(** * C76: CoherenceModel's cached accumulator never changes a coherence value. *)
From Coq Require Import List Arith Lia Reals Lra.
From Verif Require Import Base Str MatReal_Model CohAccum_Model CohMeasure_Model CohUMass_Properties CohModel_Model.

Notation ids_of topics := (segment_ids (map s_one_pre1 topics)).

(** ** Invariant *)
Record covered (n : nat) (s : cm) : Prop := {
  cov_none : c_topics s = None -> c_acc s = None;
  cov_nodup : forall rel, c_acc s = Some rel -> NoDup rel;
  cov_ids : forall rel ts v i, c_acc s = Some rel -> c_topics s = Some ts -> visible n ts = Ok v -> In i (ids_of v) -> In i rel
}.

Lemma ids_in : forall ts i, In i (ids_of ts) <-> exists t p, In t ts /\ In p (s_one_pre1 t) /\ (i = fst p \/ i = snd p).
Proof.
  intros ts i. unfold segment_ids. rewrite nodup_In, in_flat_map. split.
  - intros (p & Hp & Hi). apply in_concat in Hp. destruct Hp as (x & Hx & Hp). apply in_map_iff in Hx. destruct Hx as (t & <- & Ht).
    exists t, p. cbn in Hi. intuition auto.
  - intros (t & p & Ht & Hp & Hi). exists p. split; [apply in_concat; exists (s_one_pre1 t); split; [now apply in_map|assumption]|]. cbn. intuition auto.
Qed.

Lemma pre_prefix : forall t u p, In p (s_one_pre1 t) -> In p (s_one_pre1 (t ++ u)).
Proof.
  intros t u. induction u as [|x u IH] using rev_ind; intros p H; [now rewrite app_nil_r|].
  rewrite app_assoc, s_one_pre1_snoc. apply in_app_iff. left. auto.
Qed.
Lemma pre_firstn : forall n t p, In p (s_one_pre1 (firstn n t)) -> In p (s_one_pre1 t).
Proof. intros n t p H. rewrite <- (firstn_skipn n t). now apply pre_prefix. Qed.

Lemma visible_full : forall n ts v i, visible n ts = Ok v -> In i (ids_of v) -> In i (ids_of ts).
Proof.
  intros n ts v i E H. unfold visible in E. destruct ts as [|t0 ts]; [discriminate|]. destruct (n <? length t0); [assert (EV : v = map (firstn n) (t0 :: ts)) by congruence|assert (EV : v = t0 :: ts) by congruence]; subst v; [|exact H].
  apply ids_in in H. destruct H as (t & p & Ht & Hp & Hi). apply in_map_iff in Ht. destruct Ht as (u & <- & Hu).
  apply ids_in. exists u, p. repeat split; auto. eapply pre_firstn; eauto.
Qed.
Lemma visible_mono : forall n m ts v u i, n <= m -> visible n ts = Ok v -> visible m ts = Ok u -> In i (ids_of v) -> In i (ids_of u).
Proof.
  intros n m ts v u i L E1 E2 H. unfold visible in E2. destruct ts as [|t0 ts]; [discriminate|].
  destruct (Nat.ltb_spec m (length t0)) as [Lm|Lm]; [assert (EU : u = map (firstn m) (t0 :: ts)) by congruence|assert (EU : u = t0 :: ts) by congruence]; subst u; [|eapply visible_full; eauto].
  unfold visible in E1. rewrite (proj2 (Nat.ltb_lt n (length t0))) in E1 by lia. assert (EV : v = map (firstn n) (t0 :: ts)) by congruence. subst v.
  apply ids_in in H. destruct H as (t & p & Ht & Hp & Hi). apply in_map_iff in Ht. destruct Ht as (w & <- & Hw).
  apply ids_in. exists (firstn m w), p. split; [now apply in_map|]. split; [|exact Hi].
  apply (pre_firstn n). now rewrite firstn_firstn, Nat.min_l.
Qed.
Lemma visible_ok : forall n m ts v, visible n ts = Ok v -> exists u, visible m ts = Ok u.
Proof. intros n m [|t0 ts] v E; [discriminate|]. unfold visible. destruct (m <? length t0); eauto. Qed.

Lemma covered_mono n m s : n <= m -> covered m s -> covered n s.
Proof.
  intros L [A B C]. split; auto. intros rel ts v i E1 E2 E3 H. destruct (visible_ok n m ts v E3) as [u Eu].
  eapply C; eauto. eapply visible_mono; eauto.
Qed.

Section CM.
  Context {W : Type} (corpus : list (list (nat * W))).
  Context (token2id : dict pystr nat) (id2token : dict nat pystr).
  Context (array_equal : list (list nat) -> list (list nat) -> bool).

  (** The operations of a user. An operation that raises leaves the object as it was. *)
  Inductive op : Type :=
  | OTopics (topics : option (list (list elem)))
  | OModel (model : option tmodel)
  | OTopn (topn : nat)
  | OCompute.
  Definition exec (s : cm) (o : op) : cm :=
    let r := match o with
      | OTopics ts => set_topics token2id id2token array_equal s ts
      | OModel m => Ok (set_model array_equal s m)
      | OTopn n => set_topn array_equal s n
      | OCompute => rmap fst (coherence_per_topic corpus s)
      end in
    match r with Ok s' => s' | Err _ => s end.
  Fixpoint run (s : cm) (ops : list op) : cm :=
    match ops with [] => s | o :: ops => run (exec s o) ops end.

  (** topn is not raised once probabilities are estimated; the topics are not set to None without a model. *)
  Definition guarded (s : cm) (o : op) : Prop :=
    match o with
    | OTopn n => n <= c_topn s \/ c_acc s = None
    | OTopics None => c_model s <> None
    | _ => True
    end.
  Fixpoint all_guarded (s : cm) (ops : list op) : Prop :=
    match ops with [] => True | o :: ops => guarded s o /\ all_guarded (exec s o) ops end.

  (** ** One step *)
  (** If [np.array_equal] answers True, the topics are equal. *)
  Context (array_equal_sound : forall a b, array_equal a b = true -> a = b).

  Lemma update_covered n s new : covered n s ->
    covered n (CM (c_model (update_accumulator array_equal s (Some new))) (c_topn (update_accumulator array_equal s (Some new)))
      (c_acc (update_accumulator array_equal s (Some new))) (Some new)) /\
    c_model (update_accumulator array_equal s (Some new)) = c_model s /\ c_topn (update_accumulator array_equal s (Some new)) = c_topn s /\
    (c_acc (update_accumulator array_equal s (Some new)) = None \/ c_acc (update_accumulator array_equal s (Some new)) = c_acc s).
  Proof.
    intros [A B C]. unfold update_accumulator. destruct (c_acc s) as [rel|] eqn:Ea.
    2:{ rewrite Ea. split; [|auto]. split; cbn; congruence. }
    destruct (c_topics s) as [old|] eqn:Eo; [|now discriminate (A eq_refl)].
    destruct (array_equal new old) eqn:Eq; cbn [negb andb].
    { apply array_equal_sound in Eq. subst old. rewrite Ea. split; [|auto]. split; cbn [c_acc c_topics]; try discriminate; eauto. }
    destruct (forallb _ _) eqn:Ef; cbn [negb].
    - rewrite Ea. split; [|auto]. split; cbn [c_acc c_topics]; try discriminate; [auto|].
      intros rel' ts v i E1 E2 E3 H. injection E1 as <-. injection E2 as <-. rewrite forallb_forall in Ef.
      apply memb_true, Ef. eapply visible_full; eauto.
    - cbn [c_acc c_model c_topn]. split; [|auto]. split; cbn; congruence.
  Qed.

  Lemma set_model_covered n s m : covered n s -> covered n (set_model array_equal s m) /\ c_topn (set_model array_equal s m) = c_topn s.
  Proof.
    intros H. unfold set_model. destruct m as [m|].
    - assert (H' : covered n (CM (Some m) (c_topn s) (c_acc s) (c_topics s))) by (destruct H; split; auto).
      destruct (update_covered n _ (m (c_topn s)) H') as (H1 & _ & H3 & _). split; [exact H1|exact H3].
    - split; [destruct H; split; auto|reflexivity].
  Qed.

  Lemma exec_covered s o : covered (c_topn s) s -> guarded s o -> covered (c_topn (exec s o)) (exec s o).
  Proof.
    intros H G. unfold exec. destruct o as [ts|m|n|].
    - unfold set_topics. destruct ts as [ts|].
      + destruct (rmapM _ ts) as [l|]; cbn [rbind]; [|exact H].
        destruct (update_covered (c_topn s) s l H) as (H1 & _ & H3 & _). cbn [c_topn]. rewrite H3 in *. exact H1.
      + cbn in G. destruct (c_model s) as [m|]; [|congruence]. cbn [rbind].
        destruct (update_covered (c_topn s) s (m (c_topn s)) H) as (H1 & _ & H3 & _). cbn [c_topn]. rewrite H3 in *. exact H1.
    - destruct (set_model_covered (c_topn s) s m H) as [H1 H2]. now rewrite H2.
    - assert (HN : forall m, covered n (CM m n (c_acc s) (c_topics s))).
      { intros m. destruct G as [L|E].
        - destruct (covered_mono n (c_topn s) s L H); split; auto.
        - split; cbn; intros; congruence. }
      unfold set_topn. destruct (c_topics s) as [[|t0 ts]|] eqn:Et; try exact H.
      destruct (c_model s) as [m|].
      + destruct (length t0 <? n); [|apply HN].
        destruct (set_model_covered n _ (Some m) (HN (Some m))) as [H1 H2]. rewrite H2. exact H1.
      + destruct (length t0 <? n); [exact H|apply HN].
    - unfold coherence_per_topic, get_topics. destruct (c_topics s) as [ts|] eqn:Et; cbn [rbind rmap]; [|exact H].
      destruct (visible (c_topn s) ts) as [v|] eqn:Ev; cbn [rbind rmap fst]; [|exact H]. cbn [c_topn]. destruct H as [A B C].
      split; cbn [c_acc c_topics]; try congruence.
      + intros rel E. injection E as <-. destruct (c_acc s) eqn:Ea; [eauto|apply NoDup_nodup].
      + intros rel ts' v' i E E2 E3 Hi. injection E as <-. injection E2 as <-. assert (v' = v) by congruence. subst v'.
        destruct (c_acc s) eqn:Ea; [eapply C; eauto|exact Hi].
  Qed.

  Lemma coherence_covered s v : covered (c_topn s) s -> get_topics s = Ok v ->
    exists s', coherence_per_topic corpus s = Ok (s', u_mass_per_topic corpus v).
  Proof.
    intros [A B C] E. unfold coherence_per_topic. rewrite E. cbn [rbind]. eexists. do 2 f_equal.
    unfold get_topics in E. destruct (c_topics s) as [ts|] eqn:Et; [|discriminate].
    rewrite u_mass_means. apply lcp_means.
    - destruct (c_acc s) eqn:Ea; [eauto|apply NoDup_nodup].
    - intros i Hi. destruct (c_acc s) eqn:Ea; [eapply C; eauto|exact Hi].
  Qed.

  Lemma new_covered model topics topn s : new_cm token2id id2token array_equal model topics topn = Ok s -> c_acc s = None.
  Proof.
    unfold new_cm. intros E.
    assert (G : set_topics token2id id2token array_equal (CM model topn None None) topics = Ok s) by (destruct model, topics; congruence).
    unfold set_topics in G. cbn [c_model] in G.
    destruct topics as [ts|]; [destruct (rmapM _ ts); cbn in G; [|discriminate]|destruct model; cbn in G]; injection G as <-; reflexivity.
  Qed.

  (** However the topics, the model and topn were changed before, and whenever
      the coherence was computed, the coherence of the topics now visible is what
      a new CoherenceModel gives for them. *)
  Theorem cache_exact : forall model topics topn s ops v,
    new_cm token2id id2token array_equal model topics topn = Ok s -> all_guarded s ops ->
    get_topics (run s ops) = Ok v ->
    exists s', coherence_per_topic corpus (run s ops) = Ok (s', u_mass_per_topic corpus v).
  Proof.
    intros model topics topn s ops v E G EV. apply coherence_covered; [|exact EV].
    assert (H : covered (c_topn s) s) by (apply new_covered in E; split; congruence). clear E EV.
    revert s H G. induction ops as [|o ops IH]; intros s H G; [exact H|]. destruct G as [G1 G2]. cbn [run]. apply IH; [|exact G2].
    now apply exec_covered.
  Qed.
End CM.
Print Assumptions cache_exact.

(** ** Comparison of models *)

Lemma rmapM_len {A B} : forall (f : A -> result B) l r, rmapM f l = Ok r -> length r = length l.
Proof.
  intros f. induction l as [|x l IH]; intros r E; cbn in E; [injection E as <-; reflexivity|].
  destruct (f x); [|discriminate]. cbn in E. destruct (rmapM f l) as [q|] eqn:Er; [|discriminate]. injection E as <-. cbn. f_equal. now apply IH.
Qed.


(** A list of topics of equal length, at least [n]. *)
Definition rectangular (n : nat) (ts : list (list nat)) : Prop :=
  ts <> [] /\ exists len, n <= len /\ forall t, In t ts -> length t = len.

Section Compare.
  Context {W : Type} (corpus : list (list (nat * W))).
  Context (token2id : dict pystr nat) (id2token : dict nat pystr).
  Context (array_equal : list (list nat) -> list (list nat) -> bool).
  Context (array_equal_sound : forall a b, array_equal a b = true -> a = b).

  Lemma visible_rect : forall n N ts, rectangular N ts -> n <= N -> visible n ts = Ok (map (firstn n) ts).
  Proof.
    intros n N ts [NE (len & HL & HA)] L. unfold visible. destruct ts as [|t0 ts]; [congruence|].
    rewrite (HA t0 (or_introl eq_refl)). destruct (Nat.ltb_spec n len) as [Ln|Ln]; [reflexivity|]. f_equal.
    rewrite <- (map_id (t0 :: ts)) at 1. apply map_ext_in. intros t Ht. rewrite firstn_all2; [reflexivity|]. rewrite HA by assumption. lia.
  Qed.

  Lemma set_topn_rect s N n ts : c_topics s = Some ts -> rectangular N ts -> n <= N ->
    set_topn array_equal s n = Ok (CM (c_model s) n (c_acc s) (Some ts)).
  Proof.
    intros E [NE (len & HL & HA)] L. unfold set_topn. rewrite E. destruct ts as [|t0 ts]; [congruence|].
    rewrite (HA t0 (or_introl eq_refl)). rewrite (proj2 (Nat.ltb_ge len n)) by lia. destruct (c_model s); reflexivity.
  Qed.

  (** One model: topn goes down the grid from [N]. *)
  Lemma grid_ok : forall N ts grid s acc0, rectangular N ts -> c_topics s = Some ts -> (forall n, In n grid -> n <= N) ->
    (c_acc s = None -> exists g, grid = N :: g) -> covered N s ->
    exists s', rfold (fun (st : cm * list (result (list R))) n =>
      let* s := set_topn array_equal (fst st) n in
      let* sl := coherence_per_topic corpus s in
      Ok (fst sl, snd st ++ [snd sl])) grid (s, acc0) =
      Ok (s', acc0 ++ map (fun n => u_mass_per_topic corpus (map (firstn n) ts)) grid) /\
      covered N s' /\ c_topics s' = Some ts /\ c_model s' = c_model s /\ (forall rel, c_acc s = Some rel -> c_acc s' = Some rel).
  Proof.
    intros N ts grid. induction grid as [|n grid IH]; intros s acc0 HR HT HG HS HC.
    - exists s. cbn. rewrite app_nil_r. auto.
    - cbn [rfold fst snd]. assert (Ln : n <= N) by (apply HG; simpl; auto).
      rewrite (set_topn_rect s N n ts HT HR Ln). cbn [rbind].
      set (s1 := CM (c_model s) n (c_acc s) (Some ts)).
      assert (G1 : get_topics s1 = Ok (map (firstn n) ts)) by (unfold get_topics, s1; cbn [c_topics c_topn]; now apply (visible_rect n N)).
      assert (C1 : covered (c_topn s1) s1).
      { destruct (covered_mono n N s Ln HC) as [A B C]. unfold s1. split; cbn [c_acc c_topics c_topn]; try congruence; auto.
        intros rel ts' v i E1 E2. apply C; congruence. }
      destruct (coherence_covered corpus s1 (map (firstn n) ts) C1 G1) as (s2 & E2). rewrite E2. cbn [rbind fst snd].
      assert (S2 : s2 = CM (c_model s) n (Some (match c_acc s with Some rel => rel | None => ids_of (map (firstn n) ts) end)) (Some ts)).
      { unfold coherence_per_topic in E2. rewrite G1 in E2. cbn [rbind] in E2. injection E2 as <- _. reflexivity. }
      assert (C2 : covered N s2).
      { rewrite S2. destruct HC as [A B C]. split; cbn [c_acc c_topics]; try congruence.
        - intros rel E. injection E as <-. destruct (c_acc s) eqn:Ea; [eauto|apply NoDup_nodup].
        - intros rel ts' v i E E' Ev Hi. injection E as <-. injection E' as <-. destruct (c_acc s) eqn:Ea; [eapply C; eauto|].
          destruct (HS eq_refl) as [g Eg]. injection Eg as -> _. rewrite (visible_rect N N ts HR (Nat.le_refl _)) in Ev. injection Ev as <-. exact Hi. }
      destruct (IH s2 (acc0 ++ [u_mass_per_topic corpus (map (firstn n) ts)]) HR) as (s3 & E3 & C3 & T3 & M3 & A3); auto.
      + now rewrite S2.
      + intros m Hm. apply HG. simpl; auto.
      + rewrite S2. discriminate.
      + exists s3. split; [rewrite E3, <- app_assoc; reflexivity|]. split; [exact C3|]. split; [exact T3|].
        split; [rewrite M3, S2; reflexivity|]. intros rel E. apply A3. rewrite S2. cbn [c_acc]. now rewrite E.
  Qed.

  Lemma grid_head : forall N, exists g, topn_grid N = N :: g /\ forall n, In n (topn_grid N) -> n <= N.
  Proof.
    intros N. unfold topn_grid. destruct (Nat.eqb_spec N 0) as [->|NE].
    - exists []. split; [reflexivity|]. intros n [<-|[]]. lia.
    - destruct N as [|N]; [congruence|]. cbn [down5]. rewrite (proj2 (Nat.ltb_lt _ _)) by lia. eexists. split; [reflexivity|].
      assert (G : forall fuel m l n, In n (down5 fuel m l) -> n <= m).
      { induction fuel as [|fuel IH]; intros m l n H; [destruct H|]. cbn [down5] in H. destruct (l <? m); [|destruct H].
        destruct H as [<-|H]; [lia|]. apply IH in H. lia. }
      intros n [<-|H]; [lia|]. apply G in H. lia.
  Qed.

  Lemma models_ok : forall N model_topics idss, Forall2 (fun ts l => rmapM (ensure_ids token2id id2token) ts = Ok l) model_topics idss ->
    (forall l, In l idss -> rectangular N l) ->
    forall s acc0, covered N s -> 
    exists s', rfold (fun (st : cm * list (list (result (list R)))) topics =>
      let* s := set_topics token2id id2token array_equal (fst st) (Some topics) in
      let* sl := compare_grid corpus array_equal s (topn_grid N) in
      Ok (fst sl, snd st ++ [snd sl])) model_topics (s, acc0) =
      Ok (s', acc0 ++ map (fun ts => map (fun n => u_mass_per_topic corpus (map (firstn n) ts)) (topn_grid N)) idss) /\ covered N s' /\ c_model s' = c_model s /\
      (forall rel, c_acc s = Some rel -> (forall l i, In l idss -> In i (ids_of l) -> In i rel) -> c_acc s' = Some rel).
  Proof.
    intros N model_topics idss F. induction F as [|ts l mts idss E F IH]; intros HR s acc0 HC.
    - exists s. cbn. rewrite app_nil_r. auto.
    - cbn [rfold fst snd]. unfold set_topics at 1. rewrite E. cbn [rbind].
      destruct (update_covered array_equal array_equal_sound N s l HC) as (H1 & H2 & H3 & H4).
      set (s1 := CM _ _ _ (Some l)) in *. unfold compare_grid at 1.
      destruct (grid_head N) as (g & Eg & Hg).
      destruct (grid_ok N l (topn_grid N) s1 [] (HR l (or_introl eq_refl)) eq_refl Hg (fun _ => ex_intro _ g Eg) H1) as (s2 & E2 & C2 & T2 & M2 & A2).
      rewrite E2. cbn [rbind fst snd app].
      destruct (IH (fun l' H' => HR l' (or_intror H')) s2 (acc0 ++ [map (fun n => u_mass_per_topic corpus (map (firstn n) l)) (topn_grid N)]) C2) as (s3 & E3 & C3 & M3 & A3).
      exists s3. split; [rewrite E3, <- app_assoc; reflexivity|]. split; [exact C3|]. split; [rewrite M3, M2; exact H2|].
      intros rel Ea HI. apply A3; [|intros; eapply HI; simpl; eauto]. apply A2. unfold s1. cbn [c_acc].
      unfold update_accumulator. rewrite Ea. destruct (c_topics s); [|exact Ea].
      assert (FB : forallb (fun i => memb i rel) (ids_of l) = true) by (apply forallb_forall; intros i Hi; apply memb_true; eapply HI; simpl; eauto).
      rewrite FB. cbn [negb]. rewrite Bool.andb_false_r. exact Ea.
  Qed.

  Lemma compare_ok s model_topics idss N orig :
    c_topn s = N -> c_topics s = Some orig -> covered N s -> rectangular N orig ->
    (forall t i, In t orig -> In i t -> exists tok, dget id2token i = Some tok /\ dget token2id tok = Some i) ->
    Forall2 (fun ts l => rmapM (ensure_ids token2id id2token) ts = Ok l) model_topics idss ->
    (forall l, In l idss -> rectangular N l) ->
    exists s', compare_model_topics corpus token2id id2token array_equal s model_topics =
      Ok (s', map (fun ts => map (fun n => u_mass_per_topic corpus (map (firstn n) ts)) (topn_grid N)) idss) /\
      c_topics s' = Some orig /\ c_topn s' = N /\ c_model s' = c_model s /\ covered N s' /\
      (forall rel, c_acc s = Some rel -> (forall l i, In l idss \/ l = orig -> In i (ids_of l) -> In i rel) -> c_acc s' = Some rel).
  Proof.
    intros HN HT HC HR HD HF HI. unfold compare_model_topics, compare_inner. rewrite HN.
    destruct (models_ok N model_topics idss HF HI s [] HC) as (s1 & E1 & C1 & M1 & A1).
    assert (EI : rfold (fun (st : cm * list (list (result (list R)))) topics =>
      let* s := set_topics token2id id2token array_equal (fst st) (Some topics) in
      let* sl := compare_grid corpus array_equal s (topn_grid N) in
      Ok (fst sl, snd st ++ [snd sl])) model_topics (s, []) =
      Ok (s1, map (fun ts => map (fun n => u_mass_per_topic corpus (map (firstn n) ts)) (topn_grid N)) idss)) by exact E1.
    rewrite EI. cbn [rbind fst snd]. rewrite HT. cbn [option_map].
    assert (EN : rmapM (ensure_ids token2id id2token) (map (map Id) orig) = Ok orig).
    { clear -HD. induction orig as [|t ts IH]; [reflexivity|]. cbn [map rmapM].
      assert (E : ensure_ids token2id id2token (map Id t) = Ok t).
      { assert (HD' : forall i, In i t -> exists tok, dget id2token i = Some tok /\ dget token2id tok = Some i) by (intros; eapply HD; simpl; eauto).
        unfold ensure_ids. destruct t as [|i t]; [reflexivity|]. cbn [map rmapM tok_id rbind].
        change (rmapM (id_tok_id token2id id2token) (map Id (i :: t)) = Ok (i :: t)). clear -HD'.
        induction (i :: t) as [|j l IHl]; [reflexivity|]. cbn [map rmapM id_tok_id]. destruct (HD' j (or_introl eq_refl)) as (tok & -> & E2).
        cbn [of_option rbind]. rewrite E2. cbn [of_option rbind]. rewrite IHl by (intros; apply HD'; simpl; auto). reflexivity. }
      rewrite E. cbn [rbind]. rewrite IH by (intros; eapply HD; simpl; eauto). reflexivity. }
    unfold set_topics. rewrite EN. cbn [rbind].
    destruct (update_covered array_equal array_equal_sound N s1 orig C1) as (H1 & H2 & H3 & H4).
    set (s2 := CM _ _ _ (Some orig)) in *.
    rewrite (set_topn_rect s2 N N orig eq_refl HR (Nat.le_refl _)). cbn [rbind]. eexists. split; [reflexivity|]. cbn [c_topics c_topn c_model c_acc].
    repeat split; auto.
    - unfold s2. cbn [c_model]. congruence.
    - cbn. discriminate.
    - cbn [c_acc]. apply (cov_nodup _ _ H1).
    - cbn [c_acc c_topics]. intros rel ts v i E Et. exact (cov_ids _ _ H1 rel ts v i E Et).
    - intros rel Ea HI'. specialize (A1 rel Ea (fun l i Hl => HI' l i (or_introl Hl))). unfold s2. cbn [c_acc].
      unfold update_accumulator. rewrite A1. destruct (c_topics s1); [|exact A1].
      assert (FB : forallb (fun i => memb i rel) (ids_of orig) = true) by (apply forallb_forall; intros i Hi; apply memb_true; eapply HI'; eauto).
      rewrite FB. cbn [negb]. rewrite Bool.andb_false_r. exact A1.
  Qed.

  (** The values of [compare_model_topics] are those of a new CoherenceModel for
      each of the models and each value of topn, and the object is as before. It
      may have any history within the guards of [cache_exact]. *)
  Theorem compare_exact : forall model topics topn s0 ops s orig model_topics idss,
    new_cm token2id id2token array_equal model topics topn = Ok s0 -> all_guarded corpus token2id id2token array_equal s0 ops ->
    s = run corpus token2id id2token array_equal s0 ops ->
    c_topics s = Some orig -> rectangular (c_topn s) orig ->
    (forall t i, In t orig -> In i t -> exists tok, dget id2token i = Some tok /\ dget token2id tok = Some i) ->
    Forall2 (fun ts l => rmapM (ensure_ids token2id id2token) ts = Ok l) model_topics idss ->
    (forall l, In l idss -> rectangular (c_topn s) l) ->
    exists s', compare_model_topics corpus token2id id2token array_equal s model_topics =
      Ok (s', map (fun ts => map (fun n => u_mass_per_topic corpus (map (firstn n) ts)) (topn_grid (c_topn s))) idss) /\
      c_topics s' = Some orig /\ c_topn s' = c_topn s /\ c_model s' = c_model s.
  Proof.
    intros model topics topn s0 ops s orig model_topics idss E G ES HT HR HD HF HI.
    assert (HC : covered (c_topn s) s).
    { assert (H : covered (c_topn s0) s0) by (apply new_covered in E; split; congruence). subst s. clear -H G array_equal_sound.
      revert s0 H G. induction ops as [|o ops IH]; intros s0 H G; [exact H|]. destruct G as [G1 G2]. cbn [run]. apply IH; [|exact G2].
      now apply exec_covered. }
    destruct (compare_ok s model_topics idss (c_topn s) orig eq_refl HT HC HR HD HF HI) as (s' & E1 & E2 & E3 & E4 & _). eauto 10.
  Qed.

  (** *** [for_topics]: the words of all models are counted in a single pass. *)
  Lemma tok_ids_concat : forall tss idss, Forall2 (fun ts l => rmapM (tok_id token2id) ts = Ok l) tss idss ->
    rmapM (tok_id token2id) (concat tss) = Ok (concat idss).
  Proof.
    intros tss idss F. induction F as [|ts l tss idss E F IH]; [reflexivity|]. cbn [concat]. revert l E.
    induction ts as [|t ts IHt]; intros l E; cbn in E; [injection E as <-; exact IH|].
    destruct (tok_id token2id t) as [i|] eqn:Ei; [|discriminate]. cbn in E. destruct (rmapM (tok_id token2id) ts) as [l'|] eqn:El; [|discriminate].
    injection E as <-. cbn [app rmapM]. rewrite Ei. cbn [rbind]. now rewrite (IHt l' eq_refl).
  Qed.

  Lemma ids_single : forall t i, 2 <= length t -> In i t -> In i (ids_of [t]).
  Proof.
    intros t i L H. apply ids_in. apply In_nth with (d := 0) in H. destruct H as (k & Lk & <-).
    destruct (s_one_pre_pairs t) as [_ P]. destruct (Nat.eq_dec k 0) as [->|NK].
    - exists t, (nth 1 t 0, nth 0 t 0). split; [now left|]. split; [eapply nth_error_In, (P 1 0); lia|]. now right.
    - exists t, (nth k t 0, nth 0 t 0). split; [now left|]. split; [eapply nth_error_In, (P k 0); lia|]. now left.
  Qed.
  Lemma ids_words : forall ts i, In i (ids_of ts) -> exists t, In t ts /\ In i t.
  Proof.
    intros ts i H. apply ids_in in H. destruct H as (t & p & Ht & Hp & Hi). exists t. split; [exact Ht|].
    clear Ht. induction t as [|w t IH] using rev_ind; [destruct Hp|]. rewrite s_one_pre1_snoc in Hp. apply in_app_iff in Hp. apply in_app_iff.
    destruct Hp as [Hp|Hp]; [left; auto|]. apply in_map_iff in Hp. destruct Hp as (x & <- & Hx). cbn in Hi. destruct Hi as [->| ->]; [right; now left|now left].
  Qed.

  Theorem for_topics_exact : forall models topn N idsss,
    models <> [] ->
    (** the topics of all models are lists of known tokens *)
    Forall2 (Forall2 (fun ts l => rmapM (tok_id token2id) ts = Ok l)) models idsss ->
    (** of one length [N], the default of [topn] *)
    1 <= N -> (forall ts t, In ts models -> In t ts -> length t = N) -> (forall ts, In ts models -> ts <> []) ->
    2 <= length (concat (concat models)) ->
    (forall tok i, dget token2id tok = Some i -> dget id2token i = Some tok) ->
    topn = None \/ (exists n, topn = Some n /\ N <= n) ->
    exists s s', for_topics token2id id2token array_equal models topn = Ok s /\ c_topn s = N /\
      compare_model_topics corpus token2id id2token array_equal s models =
        Ok (s', map (fun ts => map (fun n => u_mass_per_topic corpus (map (firstn n) ts)) (topn_grid N)) idsss) /\
      (** the counts are those made at the start *)
      c_acc s' = c_acc s.
  Proof.
    intros models topn N idsss NE F LN LE NEt L2 HD HT.
    assert (FC : Forall2 (fun ts l => rmapM (tok_id token2id) ts = Ok l) (concat models) (concat idsss)).
    { clear -F. induction F as [|x y l l' H F IH]; [constructor|]. cbn. now apply Forall2_app. }
    pose proof (tok_ids_concat _ _ FC) as ES. set (super := concat (concat models)) in *. set (sids := concat (concat idsss)) in *.
    assert (LS : length sids = length super).
    { now apply rmapM_len in ES. }
    assert (LONG : fold_left (fun n topic => Nat.max n (length topic)) (concat models) 0 = N).
    { assert (A : forall t, In t (concat models) -> length t = N) by (intros t Ht; apply in_concat in Ht; destruct Ht as (ts & H1 & H2); eauto).
      assert (B : concat models <> []) by (destruct models as [|[|t ts] ms]; [congruence|exfalso; apply (NEt []); simpl; auto|discriminate]).
      assert (C : forall l m, (forall t : list elem, In t l -> length t = N) -> m <= N -> l <> [] \/ m = N -> fold_left (fun n topic => Nat.max n (length topic)) l m = N).
      { induction l as [|t l IH]; intros m H1 H2 H3; cbn; [destruct H3; congruence|]. rewrite (H1 t (or_introl eq_refl)). apply IH; [intros; apply H1; simpl; auto|lia|right; lia]. }
      apply C; [exact A|lia|now left]. }
    assert (LSN : N <= length super).
    { destruct models as [|[|t ts] ms]; [congruence|exfalso; apply (NEt []); simpl; auto|]. unfold super. cbn [concat app]. rewrite !app_length. rewrite (LE (t :: ts) t); simpl; auto. lia. }
    assert (FT : for_topics token2id id2token array_equal models topn = Ok (CM None N (Some (ids_of [sids])) (Some [sids]))).
    { unfold for_topics. rewrite LONG. fold super.
      assert (G : (length models =? 0) || existsb (fun l => length l =? 0) models = false).
      { apply Bool.orb_false_iff. split; [destruct models; [congruence|reflexivity]|]. destruct (existsb _ models) eqn:Ex; [|reflexivity].
        apply existsb_exists in Ex. destruct Ex as (ts & Hts & Hz). exfalso. apply (NEt ts Hts). destruct ts; [reflexivity|discriminate]. }
      rewrite G. replace (match topn with Some n => Nat.min n N | None => N end) with N by (destruct HT as [-> |(n & -> & Hn)]; lia).
      unfold new_cm, set_topics. cbn [rmapM c_model]. unfold ensure_ids at 1. rewrite ES. cbn [rbind].
      unfold update_accumulator. cbn [c_acc c_model c_topn rbind].
      unfold estimate_probabilities, get_topics. cbn [c_topics c_topn]. unfold visible. rewrite LS, Nat.ltb_irrefl. cbn [rbind c_model c_topn].
      unfold set_topn. cbn [c_topics c_model]. rewrite LS, (proj2 (Nat.ltb_ge _ _)) by lia. reflexivity. }
    set (s := CM None N (Some (ids_of [sids])) (Some [sids])) in *.
    assert (IDS : forall i, In i sids -> In i (ids_of [sids])) by (intros; apply ids_single; [lia|assumption]).
    assert (EQ : Forall2 (fun ts l => rmapM (ensure_ids token2id id2token) ts = Ok l) models idsss).
    { clear -F. induction F as [|x y l l' H F IH]; constructor; auto. clear -H. induction H as [|a b l l' H F IH]; [reflexivity|]. cbn.
      unfold ensure_ids at 1. rewrite H. cbn. now rewrite IH. }
    assert (LEN : forall l t, In l idsss -> In t l -> length t = N /\ (forall i, In i t -> In i sids)).
    { assert (LEN1 : forall ts l, rmapM (tok_id token2id) ts = Ok l -> length l = length ts) by (intros ts l E; now apply rmapM_len in E).
      intros l t Hl Ht. split.
      - clear -F Hl Ht LE LEN1. induction F as [|x y ms is H F IH]; [destruct Hl|]. destruct Hl as [->|Hl].
        + assert (LE' : forall t, In t x -> length t = N) by (intros; eapply LE; simpl; eauto). clear -H Ht LE' LEN1.
          induction H as [|a b p q H F IH]; [destruct Ht|]. destruct Ht as [->|Ht]; [|apply IH; auto; intros; apply LE'; simpl; auto].
          rewrite (LEN1 _ _ H). apply LE'. simpl; auto.
        + apply IH; auto. intros; eapply LE; simpl; eauto.
      - intros i Hi. unfold sids. apply in_concat. exists t. split; [|exact Hi]. apply in_concat. eauto. }
    destruct (compare_ok s models idsss N [sids] eq_refl eq_refl) as (s' & E1 & _ & _ & _ & _ & A).
    - split; [discriminate| |].
      + intros rel E. injection E as <-. apply NoDup_nodup.
      + intros rel ts v i E E2 E3 Hi. assert (rel = ids_of [sids]) by (change (Some (ids_of [sids]) = Some rel) in E; congruence). assert (ts = [sids]) by (change (Some [sids] = Some ts) in E2; congruence). subst rel ts. exact (visible_full N [sids] v i E3 Hi).
    - split; [discriminate|]. exists (length sids). split; [lia|]. intros t [<-|[]]; reflexivity.
    - intros t i [<-|[]] Hi. assert (EX : exists tok, dget token2id tok = Some i).
      { destruct (rmapM_in _ _ _ _ ES Hi) as (x & _ & Ex). destruct x as [tok|]; [|discriminate]. cbn in Ex. exists tok.
        destruct (dget token2id tok); [injection Ex as ->; reflexivity|discriminate]. }
      destruct EX as [tok Etok]. exists tok. split; [apply HD; exact Etok|exact Etok].
    - exact EQ.
    - intros l Hl. split.
      + intros ->. clear -F Hl NEt. induction F as [|x y ms is H F IH]; [destruct Hl|]. destruct Hl as [->|Hl].
        * inversion H; subst. apply (NEt []); simpl; auto.
        * apply IH; auto. intros; apply NEt; simpl; auto.
      + exists N. split; [lia|]. intros t Ht. now apply (LEN l t).
    - exists s, s'. split; [exact FT|]. split; [reflexivity|]. split; [exact E1|].
      rewrite (A (ids_of [sids]) eq_refl); [reflexivity|]. intros l i [Hl| ->] Hi; [|exact Hi].
      apply ids_words in Hi. destruct Hi as (t & Ht & Hi). apply IDS. eapply (LEN l t); eauto.
  Qed.
End Compare.
Print Assumptions compare_exact.
Print Assumptions for_topics_exact.

(** ** Concrete cases *)

Definition t2i : dict pystr nat := [([97%N], 0); ([98%N], 1); ([99%N], 2)].
Definition i2t : dict nat pystr := [(0, [97%N]); (1, [98%N]); (2, [99%N])].
Definition ta : elem := Tok [97%N].
Definition tb : elem := Tok [98%N].
Definition tc : elem := Tok [99%N].
Definition aeq (a b : list (list nat)) : bool := Base.eqb a b.
Definition ecorpus : list (list (nat * unit)) := [[(0, tt)]; [(1, tt)]; [(2, tt)]].

Lemma aeq_sound : forall a b, aeq a b = true -> a = b.
Proof. intros a b H. unfold aeq in H. now rewrite eqb_true in H. Qed.

(** Topics a, b, c at topn 3, then 2, then other topics. *)
Example cache_ex : exists s, new_cm t2i i2t aeq None (Some [[ta; tb; tc]]) 3 = Ok s /\
  (let ops := [OCompute; OTopn 2; OCompute; OTopics (Some [[tc; tb]])] in
   all_guarded ecorpus t2i i2t aeq s ops /\ get_topics (run ecorpus t2i i2t aeq s ops) = Ok [[2; 1]] /\
   c_acc (run ecorpus t2i i2t aeq s ops) = Some [0; 2; 1] /\
   exists s', coherence_per_topic ecorpus (run ecorpus t2i i2t aeq s ops) = Ok (s', u_mass_per_topic ecorpus [[2; 1]])).
Proof.
  eexists. split; [vm_compute; reflexivity|]. cbn zeta. split; [vm_compute; intuition; left; lia|]. split; [vm_compute; reflexivity|]. split; [vm_compute; reflexivity|].
  eapply (cache_exact ecorpus t2i i2t aeq aeq_sound None (Some [[ta; tb; tc]]) 3); [vm_compute; reflexivity| |vm_compute; reflexivity].
  vm_compute; intuition; left; lia.
Qed.

Example compare_ex : exists s s', new_cm t2i i2t aeq None (Some [[ta; tb]]) 2 = Ok s /\
  compare_model_topics ecorpus t2i i2t aeq s [[[tb; tc]; [tc; ta]]; [[ta; tc]]] =
    Ok (s', [[u_mass_per_topic ecorpus [[1; 2]; [2; 0]]]; [u_mass_per_topic ecorpus [[0; 2]]]]) /\ c_topics s' = Some [[0; 1]].
Proof.
  destruct (compare_exact ecorpus t2i i2t aeq aeq_sound None (Some [[ta; tb]]) 2 (CM None 2 None (Some [[0; 1]])) []
    (CM None 2 None (Some [[0; 1]])) [[0; 1]] [[[tb; tc]; [tc; ta]]; [[ta; tc]]] [[[1; 2]; [2; 0]]; [[0; 2]]]) as (s' & E & T & _).
  - vm_compute. reflexivity.
  - exact Logic.I.
  - reflexivity.
  - reflexivity.
  - split; [discriminate|]. exists 2. split; [cbn; lia|]. intros t [<-|[]]. reflexivity.
  - intros t i [<-|[]] [<-|[<-|[]]]; [exists [97%N]|exists [98%N]]; split; reflexivity.
  - constructor; [vm_compute; reflexivity|constructor; [vm_compute; reflexivity|constructor]].
  - intros l [<-|[<-|[]]]; (split; [discriminate|]); exists 2; (split; [cbn; lia|]); intros t; cbn; intuition (subst; auto).
  - do 2 eexists. split; [vm_compute; reflexivity|]. split; [exact E|exact T].
Qed.

Example for_topics_ex : exists s s', for_topics t2i i2t aeq [[[tb; tc]; [tc; ta]]; [[ta; tc]]] None = Ok s /\ c_topn s = 2 /\
  compare_model_topics ecorpus t2i i2t aeq s [[[tb; tc]; [tc; ta]]; [[ta; tc]]] =
    Ok (s', [[u_mass_per_topic ecorpus [[1; 2]; [2; 0]]]; [u_mass_per_topic ecorpus [[0; 2]]]]) /\ c_acc s' = c_acc s.
Proof.
  destruct (for_topics_exact ecorpus t2i i2t aeq aeq_sound [[[tb; tc]; [tc; ta]]; [[ta; tc]]] None 2 [[[1; 2]; [2; 0]]; [[0; 2]]]) as (s & s' & E1 & E2 & E3 & E4).
  - discriminate.
  - constructor; [constructor; [reflexivity|constructor; [reflexivity|constructor]]|constructor; [constructor; [reflexivity|constructor]|constructor]].
  - lia.
  - intros ts t [<-|[<-|[]]]; cbn; intuition (subst; auto).
  - intros ts [<-|[<-|[]]]; discriminate.
  - cbn. lia.
  - intros tok i H. apply dget_In in H. destruct H as [E|[E|[E|[]]]]; injection E as <- <-; reflexivity.
  - now left.
  - exists s, s'. split; [exact E1|]. split; [exact E2|]. split; [exact E3|exact E4].
Qed.

(** ** What goes wrong outside the guards *)

Local Open Scope R_scope.
Lemma small_log : ln ((0 / (1 + 1 + 1) + EPSILON) / (1 / (1 + 1 + 1))) < 0.
Proof. replace 0 with (ln 1) at 2 by apply ln_1. unfold EPSILON. apply ln_increasing; lra. Qed.

(** Raising topn after a computation: the accumulator without the new word is
    kept, and its pairs silently count as 0. *)
Theorem raised_topn_refuted : exists s x y s',
  new_cm t2i i2t aeq None (Some [[ta; tb; tc]]) 2 = Ok s /\
  (let s1 := run ecorpus t2i i2t aeq s [OCompute; OTopn 3] in
   get_topics s1 = Ok [[0; 1; 2]]%nat /\ coherence_per_topic ecorpus s1 = Ok (s', Ok [x]) /\
   u_mass_per_topic ecorpus [[0; 1; 2]]%nat = Ok [y] /\ y < x).
Proof.
  do 4 eexists. split; [vm_compute; reflexivity|]. cbn zeta. split; [vm_compute; reflexivity|].
  split; [cbn -[INR ln]; reflexivity|]. split; [cbn -[INR ln]; reflexivity|]. cbn -[ln].
  pose proof small_log. lra.
Qed.
Print Assumptions raised_topn_refuted.

(** The topics set to None and then to new ones: the accumulator of the old ones is kept. *)
Theorem topics_none_refuted : exists s x y s',
  new_cm t2i i2t aeq None (Some [[ta; tb]]) 2 = Ok s /\
  (let s1 := run ecorpus t2i i2t aeq s [OCompute; OTopics None; OTopics (Some [[tc; tb]])] in
   get_topics s1 = Ok [[2; 1]]%nat /\ coherence_per_topic ecorpus s1 = Ok (s', Ok [x]) /\
   u_mass_per_topic ecorpus [[2; 1]]%nat = Ok [y] /\ y < x).
Proof.
  do 4 eexists. split; [vm_compute; reflexivity|]. cbn zeta. split; [vm_compute; reflexivity|].
  split; [cbn -[INR ln]; reflexivity|]. split; [cbn -[INR ln]; reflexivity|]. cbn -[ln].
  pose proof small_log. lra.
Qed.
Print Assumptions topics_none_refuted.
Local Close Scope R_scope.

(** Only the first topic decides whether topics are cut to topn words. *)
Theorem truncation_refuted : exists s v t, new_cm t2i i2t aeq None (Some [[ta]; [ta; tb; tc]]) 2 = Ok s /\
  get_topics s = Ok v /\ In t v /\ c_topn s < length t.
Proof. do 3 eexists. split; [vm_compute; reflexivity|]. split; [vm_compute; reflexivity|]. split; [right; left; reflexivity|]. cbn. lia. Qed.
Print Assumptions truncation_refuted.

(** Given topics shorter than topn, in an object that has a model: setting topn
    (as [compare_model_topics] does, even to the value it has) replaces them by
    the topics of the model. *)
Theorem topics_replaced_refuted : exists m s s1 s2, new_cm t2i i2t aeq (Some m) None 3 = Ok s /\
  set_topics t2i i2t aeq s (Some [[tc; tb]]) = Ok s1 /\ c_topics s1 = Some [[2; 1]] /\
  set_topn aeq s1 (c_topn s1) = Ok s2 /\ c_topics s2 = Some [[0; 1; 2]].
Proof.
  exists (fun n => [firstn n [0; 1; 2]]). do 3 eexists. split; [vm_compute; reflexivity|]. split; [vm_compute; reflexivity|].
  split; [reflexivity|]. split; vm_compute; reflexivity.
Qed.
Print Assumptions topics_replaced_refuted.

(** Topics shorter than topn, without a model: accepted and evaluated by the
    object, but they cannot be compared, not even with themselves. *)
Theorem short_topics_refuted : exists s s' l, new_cm t2i i2t aeq None (Some [[ta; tb]]) 20 = Ok s /\
  coherence_per_topic ecorpus s = Ok (s', Ok l) /\ compare_model_topics ecorpus t2i i2t aeq s [[[ta; tb]]] = Err ValueError.
Proof.
  do 3 eexists. split; [vm_compute; reflexivity|]. split; [cbn -[INR ln]; reflexivity|]. vm_compute. reflexivity.
Qed.
Print Assumptions short_topics_refuted.

(** A dictionary whose reverse mapping was not filled in yet: the original
    topics cannot be put back, the comparison fails. *)
Theorem restore_refuted : exists s, new_cm t2i [] aeq None (Some [[ta; tb]]) 2 = Ok s /\
  compare_model_topics ecorpus t2i [] aeq s [[[ta; tb]]] = Err KeyError /\
  (exists s1 l, compare_inner ecorpus t2i [] aeq s [[[ta; tb]]] = Ok (s1, l)).
Proof.
  eexists. split; [vm_compute; reflexivity|]. split; [cbn -[INR ln]; reflexivity|]. do 2 eexists. cbn -[INR ln]. reflexivity.
Qed.
Print Assumptions restore_refuted.

(** The grid of a comparison: topn, topn - 5, ... down to the last value above 4 (topn alone, if it is below 5). *)
Theorem topn_grid_steps : forall topn n, In n (topn_grid topn) <-> exists j, n = topn - 5 * j /\ 5 * j <= topn /\ (j = 0 \/ 4 < n).
Proof.
  intros topn n. unfold topn_grid. destruct (Nat.eqb_spec topn 0) as [->|NZ].
  - split; [intros [<-|[]]; exists 0; lia | intros (j & -> & H & _); left; lia].
  - assert (G : forall fuel m, m <= fuel -> forall l, In n (down5 fuel m l) <-> exists j, n = m - 5 * j /\ 5 * j <= m /\ l < n).
    { induction fuel as [|fuel IH]; intros m Hm l; cbn [down5]; [split; [intros [] | intros (j & -> & _ & H); lia]|]. destruct (Nat.ltb_spec l m) as [L|L].
      - cbn [In]. rewrite IH by lia. split; [intros [<-|(j & E & H1 & H2)]; [exists 0; lia | ]|].
        + destruct (Nat.le_gt_cases 5 m) as [C|C]; [exists (S j); lia|]. lia.
        + intros (j & E & H1 & H2). destruct j as [|j]; [left; lia | right; exists j; lia].
      - split; [intros [] | intros (j & E & H1 & H2); lia]. }
    rewrite G by lia. split; intros (j & E & H1 & H2); exists j; split; try exact E; split; try exact H1; lia.
Qed.
Print Assumptions topn_grid_steps.
Example topn_grid_ex : topn_grid 20 = [20; 15; 10; 5] /\ topn_grid 12 = [12; 7] /\ topn_grid 3 = [3].
Proof. repeat split; vm_compute; reflexivity. Qed.
