(** Theorems about word embeddings as a term similarity index (property C139). *)
From Coq Require Import QArith Qabs.
From Verif Require Import Base Str Matutils_Model Matutils_Proofs Matutils_Proofs2 Matutils_Properties KeyedVectors_Model KeyedVectors_Spec KeyedVectors_Proofs KeyedVectors_Properties
  TermSim_Model TermSim_Spec TermSim_Properties WordEmbIndex_Model.
From Coq Require Import ZifyBool ZifyNat Lqa Qpower.
Close Scope Q_scope.
Local Open Scope nat_scope.

Lemma above_lt : forall t s, above t s = true <-> (t < s)%Q.
Proof.
  intros t s. unfold above. rewrite negb_true_iff. split; intros H.
  - apply Qnot_le_lt. intros L. apply Qle_bool_iff in L. congruence.
  - destruct (Qle_bool s t) eqn:E; [|reflexivity]. apply Qle_bool_iff in E. exfalso. apply (Qlt_not_le _ _ H E).
Qed.
Lemma sorted_filter : forall {A} (R : A -> A -> Prop) f l, StronglySorted R l -> StronglySorted R (filter f l).
Proof.
  intros A R f l. induction l as [|x l IH]; intros S; [constructor|]. inversion S as [|? ? S' F]; subst. cbn [filter]. destruct (f x); [|auto].
  constructor; [auto|]. rewrite Forall_forall in *. intros y Y. apply filter_In in Y. apply F. apply Y.
Qed.
Lemma filter_full : forall {A} (f : A -> bool) l, length (filter f l) = length l \/ exists x, In x l /\ f x = false.
Proof.
  induction l as [|x l IH]; [left; reflexivity|]. cbn [filter]. destruct (f x) eqn:E; [|right; exists x; split; [left; reflexivity | exact E]].
  destruct IH as [IH|(y & Y & F)]; [left; cbn [length]; congruence | right; exists y; split; [right; exact Y | exact F]].
Qed.
Lemma filter_short : forall {A} (f : A -> bool) l, length (filter f l) <= length l.
Proof. induction l as [|x l IH]; cbn [filter length]; [lia|]. destruct (f x); cbn [length]; lia. Qed.
(** The best ones above a threshold are the best ones of those above it. *)
Lemma top_above : forall sc el k idxs t, top_of sc el k idxs -> top_of sc (fun i => el i /\ (t < sc i)%Q) k (filter (fun i => above t (sc i)) idxs).
Proof.
  intros sc el k idxs t (N & E & S & L & Fu & B). split; [apply NoDup_filter; exact N|]. split.
  { intros i Hi. apply filter_In in Hi. destruct Hi as [Hi Ha]. split; [apply E; exact Hi | apply above_lt; exact Ha]. }
  split; [apply sorted_filter; exact S|]. split; [pose proof (filter_short (fun i => above t (sc i)) idxs); lia|]. split.
  - destruct Fu as [Fu|Fu].
    + destruct (filter_full (fun i => above t (sc i)) idxs) as [X|(x & X & F)]; [left; congruence|]. right. intros j [Ej Lj]. apply filter_In.
      split; [|apply above_lt; exact Lj]. destruct (in_dec Nat.eq_dec j idxs) as [Y|Y]; [exact Y|]. exfalso. pose proof (B x j X Ej Y) as Q.
      assert (above t (sc x) = true) by (apply above_lt; eapply Qlt_le_trans; eassumption). congruence.
    + right. intros j [Ej Lj]. apply filter_In. split; [apply Fu; exact Ej | apply above_lt; exact Lj].
  - intros i j Hi [Ej Lj] Nj. apply filter_In in Hi. apply B; [apply Hi | exact Ej|]. intros Y. apply Nj. apply filter_In. split; [exact Y | apply above_lt; exact Lj].
Qed.

(** A word without a vector has no similar words, and the keyed vectors stay as they are. *)
Theorem wes_unknown : forall {V R M} norm divide (mean_of : list (Q * V) -> M) score np_argsort np_argpartition power threshold kw (m : kv V R) t1 topn,
  get_index m t1 = None -> wes_most_similar norm divide mean_of score np_argsort np_argpartition power threshold kw m t1 topn = (Ok [], m).
Proof. intros. unfold wes_most_similar, has_index_for. rewrite H. reflexivity. Qed.
Print Assumptions wes_unknown.

(** The answer lists, in decreasing order of similarity, the [topn] most similar ones of the words above the threshold, within
    the rows searched and other than the words of the query, each with its similarity raised to the exponent. *)
Theorem wes_best : forall {V R M} (zero : V) (norm : V -> R) divide (mean_of : list (Q * V) -> M) score np_argsort np_argpartition,
  argsort_contract np_argsort -> argpartition_contract np_argpartition ->
  forall count ops, Forall well_shaped ops -> cache_of ops <> Stale ->
  let m := run zero norm divide count ops in
  forall power threshold (kw : kwargs V) t1 t,
  let items := (QKey t1, 1%Q) :: weighted (-1#1)%Q (kw_negative kw) in
  (forall k w, In (QKey k, w) items -> get_index m k <> None) -> (1 <= t)%Z ->
  exists terms idxs,
    Forall2 (contributes norm divide m) items terms /\
    let sc i := match nth_error (vectors m) i with Some v => score (mean_of terms) v (norm v) | None => 0%Q end in
    fst (wes_most_similar norm divide mean_of score np_argsort np_argpartition power threshold kw m t1 (Some t))
      = Ok (map (fun i => (nth i (index_to_key m) None, power (sc i))) idxs) /\
    top_of sc (fun i => (i < length (vectors m) /\ in_window (kw_clip_start kw) (kw_clip_end kw) (kw_restrict kw) i /\ ~ is_query m items i) /\ (threshold < sc i)%Q) (Z.to_nat t) idxs.
Proof.
  intros V R M zero norm divide mean_of score np_argsort np_argpartition Ha Hp count ops W NS m power threshold kw t1 t items Def T.
  destruct (most_similar_top zero norm divide mean_of score np_argsort np_argpartition Ha Hp count ops W NS [(QKey t1, None)] (kw_negative kw) t
              (kw_clip_start kw) (kw_clip_end kw) (kw_restrict kw)) as (terms & idxs & F & E & Top); [discriminate | exact Def | exact T |].
  cbv zeta in E, Top. fold m in E, Top, F. exists terms.
  set (sc := fun i => match nth_error (vectors m) i with Some v => score (mean_of terms) v (norm v) | None => 0%Q end) in *.
  exists (filter (fun i => above threshold (sc i)) idxs). split; [exact F|]. cbv zeta. fold sc. split; [|apply top_above; exact Top].
  unfold wes_most_similar, has_index_for. destruct (get_index m t1) eqn:G; [|exfalso; apply (Def t1 1%Q); [left; reflexivity | exact G]]. cbn [negb].
  match goal with |- fst (let '(_, _) := ?x in _) = _ => destruct x as [r m'] eqn:HQ end. cbn [fst].
  assert (Er : fst (r, m') = Ok (Best (map (fun i => (nth i (index_to_key m) None, sc i)) idxs))) by exact E. cbn [fst] in Er. rewrite Er. cbn [rbind]. f_equal.
  clear. induction idxs as [|i l IH]; [reflexivity|]. cbn [map filter fst snd]. destruct (above threshold (sc i)); cbn [map fst snd]; rewrite IH; reflexivity.
Qed.
Print Assumptions wes_best.

(** Without other arguments: every word of the answer is another word that has a vector, its similarity is above the threshold and
    comes raised to the exponent, and no word occurs twice. *)
Theorem wes_words : forall {V R M} (zero : V) (norm : V -> R) divide (mean_of : list (Q * V) -> M) score np_argsort np_argpartition,
  argsort_contract np_argsort -> argpartition_contract np_argpartition ->
  forall count ops, Forall well_shaped ops -> cache_of ops <> Stale -> tidy count ops ->
  let m := run zero norm divide count ops in
  forall power threshold t1 n,
  let l := wes_index norm divide mean_of score np_argsort np_argpartition power threshold no_kwargs m t1 n in
  NoDup (map fst l) /\ length l <= n /\
  forall t2 s, In (t2, s) l -> t2 <> t1 /\ exists v1 v2, snd (content count ops) t1 = Some v1 /\ snd (content count ops) t2 = Some v2 /\
    let similarity := score (mean_of [(1%Q, divide v1 (norm v1))]) v2 (norm v2) in (threshold < similarity)%Q /\ s = power similarity.
Proof.
  intros V R M zero norm divide mean_of score np_argsort np_argpartition Ha Hp count ops W NS Ti m power threshold t1 n l.
  destruct (run_ok zero norm divide count ops W) as (I & _ & A). fold m in I, A. specialize (A Ti).
  destruct (get_index m (KStr t1)) as [i1|] eqn:G.
  2:{ assert (E : l = []) by (unfold l, wes_index; rewrite wes_unknown by exact G; reflexivity). rewrite E. split; [constructor|]. split; [cbn; lia|]. intros t2 s []. }
  destruct n as [|n].
  { assert (E : l = []).
    { unfold l, wes_index, wes_most_similar, has_index_for. rewrite G. cbn [negb]. rewrite (proj1 (most_similar_edges norm divide mean_of score np_argsort np_argpartition m _ _ _ _ _)) by lia. reflexivity. }
    rewrite E. split; [constructor|]. split; [cbn; lia|]. intros t2 s []. }
  destruct (wes_best zero norm divide mean_of score np_argsort np_argpartition Ha Hp count ops W NS power threshold no_kwargs (KStr t1) (Z.of_nat (S n)))
    as (terms & idxs & F & E & N & El & _ & Le & _); [|lia|].
  { intros k w [X|[]]. injection X as <- <-. fold m. rewrite G. discriminate. }
  cbv zeta in E, El. fold m in E, El, F. rewrite Nat2Z.id in Le. cbn [no_kwargs kw_negative weighted map] in F, El.
  inversion F as [|? x ? ? C F']; subst. inversion F'; subst. cbn [contributes] in C. destruct C as (i & v1 & G1 & V1 & ->). rewrite G in G1. injection G1 as <-.
  set (sc := fun i => match nth_error (vectors m) i with Some v => score (mean_of [(1%Q, divide v1 (norm v1))]) v (norm v) | None => 0%Q end) in *.
  assert (L : l = flat_map (fun i => match nth i (index_to_key m) None with Some (KStr s) => [(s, power (sc i))] | _ => [] end) idxs).
  { unfold l, wes_index. rewrite E. clear. induction idxs as [|i r IH]; [reflexivity|]. cbn [map flat_map fst snd]. rewrite IH. reflexivity. }
  assert (At : forall i s, In i idxs -> nth i (index_to_key m) None = Some (KStr s) -> get_index m (KStr s) = Some i).
  { intros i s Hi Hs. rewrite get_index_str. apply A. rewrite <- Hs. apply nth_error_nth'. destruct (El i Hi) as [[Li _] _]. rewrite <- (I_len _ _ _ I). exact Li. }
  rewrite L. split; [|split].
  - clear - N At. induction idxs as [|i r IH]; [constructor|]. inversion N as [|? ? NI N']; subst. cbn [flat_map]. rewrite map_app.
    assert (IH' : NoDup (map fst (flat_map (fun i => match nth i (index_to_key m) None with Some (KStr s) => [(s, power (sc i))] | _ => [] end) r))).
    { apply IH; [exact N'|]. intros j s Hj. apply At. right. exact Hj. }
    destruct (nth i (index_to_key m) None) as [[s|z]|] eqn:Ei; try exact IH'. cbn [map app fst]. constructor; [|exact IH'].
    intros X. apply in_map_iff in X. destruct X as ((s' & q) & Es & X). cbn [fst] in Es. subst s'. apply in_flat_map in X. destruct X as (j & Hj & X).
    destruct (nth j (index_to_key m) None) as [[s'|z]|] eqn:Ej; try destruct X. 2:{ contradiction. } injection H as -> _.
    pose proof (At i s (or_introl eq_refl) Ei) as G1. pose proof (At j s (or_intror Hj) Ej) as G2. rewrite G1 in G2. injection G2 as ->. contradiction.
  - transitivity (length idxs); [|exact Le]. clear. induction idxs as [|i r IH]; [cbn; lia|]. cbn [flat_map length]. rewrite app_length.
    destruct (nth i (index_to_key m) None) as [[s|z]|]; cbn [length]; lia.
  - intros t2 s H. apply in_flat_map in H. destruct H as (i & Hi & H). destruct (nth i (index_to_key m) None) as [[s2|z]|] eqn:Ei; try destruct H. 2:{ contradiction. }
    injection H as -> <-. pose proof (At i t2 Hi Ei) as G2. destruct (El i Hi) as [(Li & _ & NQ) Th]. fold sc in Th. split.
    + intros ->. apply NQ. exists (KStr t1), 1%Q. split; [left; reflexivity | exact G2].
    + pose proof Li as Li'. apply nth_error_Some in Li'. destruct (nth_error (vectors m) i) as [v2|] eqn:E2; [|congruence]. exists v1, v2.
      rewrite get_index_str in G, G2. rewrite (I_f _ _ _ I t1), G, V1, (I_f _ _ _ I t2), G2, E2. split; [reflexivity|]. split; [reflexivity|].
      unfold sc in *. rewrite E2 in *. split; [exact Th | reflexivity].
Qed.
Print Assumptions wes_words.

(** Asking changes nothing but the cached norms: the next answers are the same. *)
Theorem wes_again : forall {V R M} norm divide (mean_of : list (Q * V) -> M) score np_argsort np_argpartition power threshold kw (m : kv V R) t1 topn t1' topn',
  let ask := wes_most_similar norm divide mean_of score np_argsort np_argpartition power threshold kw in
  fst (ask (snd (ask m t1 topn)) t1' topn') = fst (ask m t1' topn').
Proof.
  intros V R M norm divide mean_of score np_argsort np_argpartition power threshold kw m t1 topn t1' topn' ask.
  assert (S : snd (ask m t1 topn) = m \/ snd (ask m t1 topn) = fill_norms norm m false).
  { unfold ask, wes_most_similar. destruct (negb _); [left; reflexivity|]. unfold most_similar.
    destruct (match topn with Some t => (t <? 1)%Z | None => false end); [left; reflexivity|]. right.
    destruct (kw_restrict kw) as [[|?]|]; reflexivity. }
  destruct S as [->| ->]; [reflexivity|]. unfold ask, wes_most_similar.
  destruct (fill_norms_same norm m false) as (S1 & S2 & S3 & S4).
  assert (H : has_index_for (fill_norms norm m false) t1' = has_index_for m t1') by (unfold has_index_for, get_index, kv_len; rewrite S1, S3; reflexivity).
  rewrite H. destruct (negb _); [reflexivity|]. unfold most_similar.
  destruct (match topn' with Some t => (t <? 1)%Z | None => false end); [reflexivity|].
  assert (F : fill_norms norm (fill_norms norm m false) false = fill_norms norm m false) by (unfold fill_norms; destruct (norms m) eqn:Nm; cbn; [rewrite Nm|]; reflexivity).
  rewrite F. reflexivity.
Qed.
Print Assumptions wes_again.

Lemma power_mono : forall (x y : Q) e, (0 <= y)%Q -> (y <= x)%Q -> (0 <= y ^ Z.of_nat e <= x ^ Z.of_nat e)%Q.
Proof.
  intros x y e Y L. induction e as [|e IH]; [cbn; split; lra|].
  assert (P : forall z : Q, (z ^ Z.of_nat (S e) == z ^ Z.of_nat e * z)%Q).
  { intros z. rewrite Nat2Z.inj_succ, <- Z.add_1_r. destruct (Z.of_nat e) as [|p|p] eqn:E; [cbn; lra| |lia].
    change (Z.pos p + 1)%Z with (Z.pos (p + 1)). cbn [Qpower]. rewrite Qpower_plus_positive. reflexivity. }
  rewrite !P. destruct IH as [I1 I2]. split; [apply Qmult_le_0_compat; assumption|].
  apply (Qle_trans _ (x ^ Z.of_nat e * y)%Q); [apply Qmult_le_compat_r; assumption|].
  rewrite (Qmult_comm _ y), (Qmult_comm _ x). apply Qmult_le_compat_r; [exact L|]. apply (Qle_trans _ _ _ I1 I2).
Qed.
(** With a threshold of at least zero and a whole exponent the similarities given are not negative and do not increase. *)
Theorem wes_order : forall {V R M} (zero : V) (norm : V -> R) divide (mean_of : list (Q * V) -> M) score np_argsort np_argpartition,
  argsort_contract np_argsort -> argpartition_contract np_argpartition ->
  forall count ops, Forall well_shaped ops -> cache_of ops <> Stale ->
  let m := run zero norm divide count ops in
  forall threshold exponent t1 t l, (0 <= threshold)%Q ->
  fst (wes_most_similar norm divide mean_of score np_argsort np_argpartition (fun s => (s ^ Z.of_nat exponent)%Q) threshold no_kwargs m t1 (Some t)) = Ok l ->
  Forall (fun ks => 0 <= snd ks)%Q l /\ StronglySorted (fun a b => snd b <= snd a)%Q l /\ length l <= Z.to_nat t.
Proof.
  intros V R M zero norm divide mean_of score np_argsort np_argpartition Ha Hp count ops W NS m threshold exponent t1 t l Th H.
  assert (Nil : l = [] -> Forall (fun ks : option key * Q => 0 <= snd ks)%Q l /\ StronglySorted (fun a b => snd b <= snd a)%Q l /\ length l <= Z.to_nat t).
  { intros ->. split; [constructor|]. split; [constructor | cbn; lia]. }
  destruct (get_index m t1) as [i1|] eqn:G.
  2:{ rewrite wes_unknown in H by exact G. injection H as <-. apply Nil. reflexivity. }
  destruct (Z.lt_ge_cases t 1) as [T|T].
  { unfold wes_most_similar, has_index_for in H. rewrite G in H. cbn [negb] in H. rewrite (proj1 (most_similar_edges norm divide mean_of score np_argsort np_argpartition m _ _ _ _ _)) in H by lia.
    injection H as <-. apply Nil. reflexivity. }
  destruct (wes_best zero norm divide mean_of score np_argsort np_argpartition Ha Hp count ops W NS (fun s => (s ^ Z.of_nat exponent)%Q) threshold no_kwargs t1 t)
    as (terms & idxs & F & E & N & El & S & Le & _); [|exact T|].
  { intros k w [X|[]]. injection X as <- <-. fold m. rewrite G. discriminate. }
  cbv zeta in E, El, S. fold m in E, El, S. rewrite H in E. injection E as ->.
  set (sc := fun i => match nth_error (vectors m) i with Some v => score (mean_of terms) v (norm v) | None => 0%Q end) in *.
  assert (Pos : forall i, In i idxs -> (0 <= sc i)%Q) by (intros i Hi; destruct (El i Hi) as [_ X]; apply Qlt_le_weak; exact (Qle_lt_trans _ _ _ Th X)).
  split; [|split].
  - apply Forall_forall. intros ks X. apply in_map_iff in X. destruct X as (i & <- & Hi). cbn [snd]. fold (sc i). apply (power_mono (sc i) (sc i)); [auto | lra].
  - clear - S Pos. induction idxs as [|i r IH]; [constructor|]. inversion S as [|? ? S' F]; subst. cbn [map]. constructor.
    + apply IH; [exact S'|]. intros j Hj. apply Pos. right. exact Hj.
    + apply Forall_forall. intros ks X. apply in_map_iff in X. destruct X as (j & <- & Hj). cbn [snd]. rewrite Forall_forall in F. specialize (F j Hj).
      apply (power_mono (sc i) (sc j)); [apply Pos; right; exact Hj | exact F].
  - rewrite map_length. exact Le.
Qed.
Print Assumptions wes_order.

(** A term similarity matrix built from word embeddings: it is always built, has ones on the diagonal, and every other entry is
    the similarity of the two words, above the threshold and raised to the exponent. *)
Theorem wes_matrix : forall {V R M} (zero : V) (norm : V -> R) divide (mean_of : list (Q * V) -> M) score np_argsort np_argpartition,
  argsort_contract np_argsort -> argpartition_contract np_argpartition ->
  forall count ops, Forall well_shaped ops -> cache_of ops <> Stale -> tidy count ops ->
  forall power threshold token2id idfs symmetric dominant lim dt,
  let c := mkConfig (wes_index norm divide mean_of score np_argsort np_argpartition power threshold no_kwargs (run zero norm divide count ops))
             token2id idfs symmetric dominant lim dt in
  good_dictionary c -> good_idfs c -> (dt = F32 \/ dt = F64) ->
  let value t1 t2 v := exists v1 v2, snd (content count ops) t1 = Some v1 /\ snd (content count ops) t2 = Some v2 /\
    let similarity := score (mean_of [(1%Q, divide v1 (norm v1))]) v2 (norm v2) in (threshold < similarity)%Q /\ v = power similarity in
  exists ts, create_source c = Ok ts /\ (forall i, i < n_terms c -> (entry ts i i == 1)%Q) /\
    forall r k v, r <> k -> In (r, k, v) ts -> exists t1 t2, dget token2id t1 = Some k /\ dget token2id t2 = Some r /\
      (value t1 t2 v \/ symmetric = true /\ value t2 t1 v).
Proof.
  intros V R M zero norm divide mean_of score np_argsort np_argpartition Ha Hp count ops W NS Ti power threshold token2id idfs symmetric dominant lim dt c Gd Gf D value.
  assert (Wo := wes_words zero norm divide mean_of score np_argsort np_argpartition Ha Hp count ops W NS Ti power threshold). cbv zeta in Wo.
  assert (We : well c).
  { repeat split; try apply Gd; auto.
    - apply (Wo term n).
    - intros X. apply in_map_iff in X. destruct X as ((t & s) & E & X). cbn [fst] in E. subst t. destruct (Wo term n) as (_ & _ & Z). destruct (Z _ _ X) as [Z1 _]. congruence. }
  destruct (termsim_total c We) as (ts & E). exists ts. split; [exact E|]. split; [intros i L; apply (termsim_diagonal c); assumption|].
  intros r k v NE H. destruct (termsim_answered c ts r k v We E NE H) as [X|[Sy X]]; destruct X as (t1 & t2 & n & D1 & D2 & X); cbn [c c_token2id c_index c_symmetric] in *.
  - exists t1, t2. split; [exact D1|]. split; [exact D2|]. left. destruct (Wo t1 n) as (_ & _ & Z). apply (Z _ _ X).
  - exists t2, t1. split; [exact D2|]. split; [exact D1|]. right. split; [exact Sy|]. destruct (Wo t1 n) as (_ & _ & Z). apply (Z _ _ X).
Qed.
Print Assumptions wes_matrix.

(** The counters of [_create_source] have the shortest type that holds all values up to the limit. *)
Theorem shortest_uint_fits : forall n, (n < 2 ^ 64)%Z ->
  let w := shortest_uint n in (n < 2 ^ w)%Z /\ In w [8; 16; 32; 64]%Z /\ forall w', In w' [8; 16; 32; 64]%Z -> (n < 2 ^ w')%Z -> (w <= w')%Z.
Proof.
  intros n L. cbv zeta. unfold shortest_uint.
  destruct (Z.ltb_spec n (2 ^ 8)); [|destruct (Z.ltb_spec n (2 ^ 16)); [|destruct (Z.ltb_spec n (2 ^ 32))]];
    (split; [assumption|]; split; [cbn; tauto|]; intros w' [<-|[<-|[<-|[<-|[]]]]] X; lia).
Qed.
Print Assumptions shortest_uint_fits.
Example shortest_uint_ex : map shortest_uint [0; 255; 256; 65536; 2 ^ 32; -1]%Z = [8; 8; 16; 32; 64; 8]%Z.
Proof. reflexivity. Qed.

(** ** Examples and violations *)
Definition sq (s : Q) : Q := Qred (s * s).
Definition ex_wes := wes_most_similar ex_norm ex_div ex_mean ex_score ref_argsort ref_argpartition.
Definition ex_index := wes_index ex_norm ex_div ex_mean ex_score ref_argsort ref_argpartition.
Definition ex_ops : list (op vec) := [AddMany [a; b; c; str "d"] [[3;4]; [6;8]; [8;6]; [-3;-4]]%Q false].
Example wes_ex :
  fst (ex_wes sq 0 no_kwargs (ex_run 0 ex_ops) (KStr a) (Some 9%Z)) = Ok [(Some (KStr b), 1); (Some (KStr c), 576#625)]%Q /\
  fst (ex_wes sq (24#25) no_kwargs (ex_run 0 ex_ops) (KStr a) (Some 9%Z)) = Ok [(Some (KStr b), 1)]%Q /\
  fst (ex_wes sq 0 (mkKw [] 2 None None) (ex_run 0 ex_ops) (KStr a) (Some 1%Z)) = Ok [(Some (KStr c), 576#625)]%Q /\
  fst (ex_wes sq 0 no_kwargs (ex_run 0 ex_ops) (KStr (str "x")) (Some 9%Z)) = Ok [] /\
  fst (ex_wes sq 0 no_kwargs (ex_run 0 ex_ops) (KStr a) None) = Err TypeError.
Proof. vm_compute. repeat split. Qed.
Definition ex_matrix (threshold : Q) (ops : list (op vec)) (words : list pystr) : config :=
  mkConfig (ex_index sq threshold no_kwargs (ex_run 0 ops)) (combine words (seq 0 (length words))) None true false None F32.
Example wes_matrix_ex : create_source (ex_matrix 0 ex_ops [a; str "x"; c]) =
  Ok [(0, 0, 1%Q); (2, 0, (576#625)%Q); (0, 2, (576#625)%Q); (1, 1, 1%Q); (2, 2, 1%Q)].
Proof. vm_compute. reflexivity. Qed.

(** With a negative threshold the even exponent gives words of opposite meaning the similarity of synonyms, and the answers are no
    longer in order. *)
Theorem wes_negative_refuted : exists (ops : list (op vec)) l, Forall well_shaped ops /\ cache_of ops <> Stale /\ tidy 0 ops /\
  fst (ex_wes sq (-2#1) no_kwargs (ex_run 0 ops) (KStr a) (Some 9%Z)) = Ok l /\
  In (Some (KStr (str "d")), 1%Q) l /\ ~ StronglySorted (fun x y => snd y <= snd x)%Q l.
Proof.
  exists ex_ops. eexists. split; [repeat constructor|]. split; [discriminate|]. split.
  { split; [|exact I]. cbn. repeat constructor; cbn; intuition discriminate. }
  split; [vm_compute; reflexivity|]. split; [cbn; auto|]. intros S. inversion S as [|? ? S1 _]; subst. inversion S1 as [|? ? _ F]; subst.
  inversion F as [|? ? L]; subst. cbn in L. vm_compute in L. apply L. reflexivity.
Qed.
(** Words outside the dictionary use up the places: two words of the dictionary that are similar get the entry zero, though nothing
    else is in the column. *)
Theorem wes_crowded_refuted : exists (ops : list (op vec)) words ts, Forall well_shaped ops /\ cache_of ops <> Stale /\ tidy 0 ops /\
  good_dictionary (ex_matrix 0 ops words) /\ create_source (ex_matrix 0 ops words) = Ok ts /\ off ts 0 = [] /\ (entry ts 1 0 == 0)%Q /\
  In (Some (KStr c), 576#625)%Q (match fst (ex_wes sq 0 no_kwargs (ex_run 0 ops) (KStr a) (Some 9%Z)) with Ok l => l | Err _ => [] end) /\ nth_error words 0 = Some a /\ nth_error words 1 = Some c.
Proof.
  exists [AddMany [a; b; c; str "d"; str "e"; str "f"] [[3;4]; [6;8]; [8;6]; [9;12]; [4;3]; [12;9]]%Q false], [a; c]. eexists. split; [repeat constructor|]. split; [discriminate|]. split.
  { split; [|exact I]. cbn. repeat constructor; cbn; intuition discriminate. }
  split; [split; [cbn; repeat constructor; cbn; intuition discriminate | split; [apply Permutation_refl | cbn; lia]]|].
  split; [vm_compute; reflexivity|]. split; [vm_compute; reflexivity|]. split; [vm_compute; reflexivity|]. split; [vm_compute; auto 6|]. split; reflexivity.
Qed.
(** Limits of 2^64 and more do not fit the chosen type. *)
Theorem shortest_uint_refuted : exists n, (2 ^ shortest_uint n <= n)%Z.
Proof. exists (2 ^ 64)%Z. vm_compute. discriminate. Qed.
