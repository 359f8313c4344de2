(** Theorems about the words of several models for the coherence (property C141). *)
From Coq Require Import QArith.
From Verif Require Import Base Str Matutils_Model Matutils_Proofs Matutils_Proofs2 Matutils_Properties Dictionary_Model Dictionary_Spec Dictionary_Proofs Dictionary_Proofs2 Dictionary_Proofs3 Dictionary_Properties
  CohAccum_Model CohMeasure_Model CohUMass_Properties CohModel_Model CohModel_Properties CohWords_Model.
From Coq Require Import ZifyBool ZifyNat Lqa.
Close Scope Q_scope.
Local Open Scope nat_scope.

(** The [n] heaviest positions of a topic, heaviest first. *)
Definition heaviest (topic : list Q) (n : nat) (ids : list nat) : Prop := is_topn (fun i j => nth j topic 0 <= nth i topic 0)%Q (length topic) n ids.
(** The words are those the dictionary gives the ids. *)
Definition named (d : dictionary) (ids : list nat) (words : list pystr) : Prop := Forall2 (fun i w => dget (d_token2id d) w = Some i) ids words.
(** The reverse map was never made, or is up to date. *)
Definition fresh (d : dictionary) : Prop := d_id2token d = [] \/ length (d_id2token d) = d_len d.

Lemma full_cache : forall d i, d_inv d -> length (d_id2token d) = d_len d -> i < d_len d -> dget (d_id2token d) i <> None.
Proof.
  intros d i I L Hi E. assert (N : ~ In i (dkeys (d_id2token d))).
  { intros X. unfold dkeys in X. apply in_map_iff in X. destruct X as ([j t] & <- & X). cbn [fst] in E. rewrite (In_dget _ _ _ (i_cache_nd _ I) X) in E. discriminate. }
  assert (Inc : incl (i :: dkeys (d_id2token d)) (seq 0 (d_len d))).
  { intros j [<-|X]; apply in_seq; [lia|]. unfold dkeys in X. apply in_map_iff in X. destruct X as ([k t] & <- & X). cbn [fst].
    pose proof (i_cache _ I k t (In_dget _ _ _ (i_cache_nd _ I) X)) as G. destruct (inv_dense d I) as (D & _). pose proof (D t k G). lia. }
  apply NoDup_incl_length in Inc; [|constructor; [exact N | apply (i_cache_nd _ I)]]. cbn [length] in Inc. unfold dkeys in Inc. rewrite map_length, seq_length in Inc. lia.
Qed.
Lemma fill_inv : forall d, d_inv d -> d_inv (fill_id2token d).
Proof.
  intros d I. unfold fill_id2token. destruct (d_id2token d) eqn:E; [|exact I]. destruct I as [K P A B C D F G].
  assert (NV : NoDup (dvals (d_token2id d))) by (eapply Permutation_NoDup; [apply Permutation_sym; exact P | apply seq_NoDup]).
  constructor; cbn [with_id2token d_token2id d_id2token d_dfs d_cfs]; auto; [apply NoDup_revdict|]. intros i t X. apply revdict_get in X; assumption.
Qed.
Lemma fill_fresh : forall d, d_inv d -> fresh d -> length (d_id2token (fill_id2token d)) = d_len (fill_id2token d).
Proof.
  intros d I F. unfold fill_id2token. destruct (d_id2token d) eqn:E.
  - cbn [with_id2token d_id2token]. unfold d_len. cbn [with_id2token d_token2id]. apply length_revdict. eapply Permutation_NoDup; [apply Permutation_sym; apply (i_perm _ I) | apply seq_NoDup].
  - destruct F as [F|F]; [congruence|]. rewrite E. rewrite E in F. exact F.
Qed.
Lemma fill_t2i : forall d, d_token2id (fill_id2token d) = d_token2id d.
Proof. intros d. unfold fill_id2token. destruct (d_id2token d); reflexivity. Qed.
Lemma fill_idem : forall d, fill_id2token (fill_id2token d) = fill_id2token d.
Proof.
  intros d. unfold fill_id2token at 2 3. destruct (d_id2token d) eqn:E; unfold fill_id2token; [|rewrite E; reflexivity].
  cbn [with_id2token d_id2token d_token2id]. destruct (revdict (d_token2id d)) eqn:R; [|reflexivity]. reflexivity.
Qed.
Lemma best_ids : forall f g, argsort_contract f -> argpartition_contract g -> forall topic n, heaviest topic n (argsort f g topic (Some (Z.of_nat n)) true).
Proof.
  intros f g Hf Hg topic n. pose proof (argsort_is_topn f g Hf Hg topic (Some (Z.of_nat n)) true) as X. cbv beta iota zeta in X. rewrite Nat2Z.id in X. exact X.
Qed.
Lemma names_right : forall d ids ws, d_inv d -> rmapM (fun i => of_option KeyError (dget (d_id2token d) i)) ids = Ok ws -> named d ids ws.
Proof.
  intros d ids. induction ids as [|i ids IH]; intros ws I H; [injection H as <-; constructor|]. cbn [rmapM] in H. destruct (dget (d_id2token d) i) as [t|] eqn:E; [|discriminate].
  cbn [of_option rbind] in H. destruct (rmapM _ ids) as [ws'|] eqn:E'; [|discriminate]. injection H as <-. constructor; [apply (i_cache _ I); exact E | apply IH; [exact I | reflexivity]].
Qed.
Lemma names_fail : forall d ids e, rmapM (fun i => of_option KeyError (dget (d_id2token d) i)) ids = Err e -> e = KeyError.
Proof.
  intros d ids e. induction ids as [|i ids IH]; [discriminate|]. cbn [rmapM]. destruct (dget (d_id2token d) i); cbn [of_option rbind]; [|intros H; injection H as <-; reflexivity].
  destruct (rmapM _ ids); [discriminate|]. cbn [rbind]. intros H. apply IH. exact H.
Qed.

(** The answer is never wrong: the words of the heaviest positions of every topic, in order, or a KeyError; the token ids stay. *)
Theorem cohwords_right : forall np_argsort np_argpartition, argsort_contract np_argsort -> argpartition_contract np_argpartition ->
  forall d topn model d' r, reachable d -> word_lists np_argsort np_argpartition d topn model = (d', r) ->
  d_token2id d' = d_token2id d /\
  match r with
  | Ok l => Forall2 (fun topic words => exists ids, heaviest topic topn ids /\ named d ids words) model l
  | Err e => e = KeyError
  end.
Proof.
  intros f g Hf Hg d topn model d' r R H. injection H as <- <-. split; [apply fill_t2i|]. pose proof (fill_inv d (reachable_inv d R)) as I.
  set (d1 := fill_id2token d) in *. assert (T : d_token2id d1 = d_token2id d) by apply fill_t2i.
  destruct (rmapM (topic_words f g d1 topn) model) as [l|e] eqn:E.
  - revert l E. induction model as [|topic model IH]; intros l E; [injection E as <-; constructor|]. cbn [rmapM] in E.
    destruct (topic_words f g d1 topn topic) as [w|] eqn:Ew; [|discriminate]. cbn [rbind] in E. destruct (rmapM _ model) as [l'|]; [|discriminate]. injection E as <-.
    constructor; [|apply IH; reflexivity]. eexists. split; [apply (best_ids f g Hf Hg)|]. unfold named. rewrite <- T. apply names_right; [exact I | exact Ew].
  - induction model as [|topic model IH]; [discriminate|]. cbn [rmapM] in E. destruct (topic_words f g d1 topn topic) as [w|e'] eqn:Ew; cbn [rbind] in E.
    + destruct (rmapM _ model); [discriminate|]. cbn [rbind] in E. apply IH. exact E.
    + injection E as <-. apply names_fail in Ew. exact Ew.
Qed.
Print Assumptions cohwords_right.

Lemma one_model : forall f g, argsort_contract f -> argpartition_contract g -> forall d topn model, d_inv d -> fresh d -> (forall topic, In topic model -> length topic <= d_len d) ->
  exists l idss, word_lists f g d topn model = (fill_id2token d, Ok l) /\ Forall2 (fun topic ids => heaviest topic topn ids) model idss /\ Forall2 (named d) idss l.
Proof.
  intros f g Hf Hg d topn model I F L. unfold word_lists. set (d1 := fill_id2token d). pose proof (fill_inv d I) as I1. pose proof (fill_fresh d I F) as F1. fold d1 in I1, F1.
  assert (T : d_token2id d1 = d_token2id d) by apply fill_t2i. assert (Ld : d_len d1 = d_len d) by (unfold d_len; rewrite T; reflexivity).
  induction model as [|topic model IH]; [exists [], []; split; [reflexivity|]; split; constructor|].
  destruct IH as (l & idss & E & H1 & H2); [intros t Ht; apply L; right; exact Ht|]. injection E as E.
  pose proof (best_ids f g Hf Hg topic topn) as B. cbn [rmapM]. unfold topic_words at 1. set (ids := argsort f g topic (Some (Z.of_nat topn)) true) in *.
  destruct (rmapM (fun i => of_option KeyError (dget (d_id2token d1) i)) ids) as [ws|e] eqn:Ew.
  - exists (ws :: l), (ids :: idss). cbn [rbind]. rewrite E. split; [reflexivity|]. split; constructor; auto. unfold named. rewrite <- T. apply names_right; assumption.
  - exfalso. destruct B as (_ & _ & Lt & _). assert (G : forall i, In i ids -> dget (d_id2token d1) i <> None).
    { intros i Hi. apply full_cache; [exact I1 | exact F1|]. pose proof (Lt i Hi). pose proof (L topic (or_introl eq_refl)). lia. }
    clear - Ew G. induction ids as [|i ids IH]; [discriminate|]. cbn [rmapM] in Ew. pose proof (G i (or_introl eq_refl)). destruct (dget (d_id2token d1) i); [|congruence].
    cbn [of_option rbind] in Ew. destruct (rmapM _ ids); [discriminate|]. apply IH; [exact Ew | intros j Hj; apply G; right; exact Hj].
Qed.
(** With a reverse map that is empty or up to date all topics over the vocabulary get their words. *)
Theorem cohwords_all : forall np_argsort np_argpartition, argsort_contract np_argsort -> argpartition_contract np_argpartition ->
  forall d topn model, reachable d -> fresh d -> (forall topic, In topic model -> length topic <= d_len d) ->
  exists l, snd (word_lists np_argsort np_argpartition d topn model) = Ok l /\
    Forall2 (fun topic words => exists ids, heaviest topic topn ids /\ named d ids words) model l.
Proof.
  intros f g Hf Hg d topn model R F L. destruct (one_model f g Hf Hg d topn model (reachable_inv d R) F L) as (l & idss & E & _ & _). exists l. rewrite E. split; [reflexivity|].
  apply (cohwords_right f g Hf Hg d topn model _ _ R E).
Qed.
Print Assumptions cohwords_all.

Lemma fresh_fill : forall d, d_inv d -> fresh d -> fresh (fill_id2token d).
Proof. intros d I F. right. apply fill_fresh; assumption. Qed.
Lemma all_models : forall f g, argsort_contract f -> argpartition_contract g -> forall models d topn, d_inv d -> fresh d ->
  (forall model topic, In model models -> In topic model -> length topic <= d_len d) ->
  exists ws idsss, all_word_lists f g d topn models = (match models with [] => d | _ => fill_id2token d end, Ok ws) /\
    Forall2 (Forall2 (fun topic ids => heaviest topic topn ids)) models idsss /\ Forall2 (Forall2 (named d)) idsss ws.
Proof.
  intros f g Hf Hg. induction models as [|m models IH]; intros d topn I F L; [exists [], []; split; [reflexivity|]; split; constructor|].
  destruct (one_model f g Hf Hg d topn m I F) as (w & idss & E & H1 & H2); [intros t Ht; apply (L m t); [left; reflexivity | exact Ht]|].
  assert (T : d_token2id (fill_id2token d) = d_token2id d) by apply fill_t2i.
  destruct (IH (fill_id2token d) topn (fill_inv d I) (fresh_fill d I F)) as (ws & idsss & E' & H3 & H4).
  { intros m' t Hm Ht. unfold d_len. rewrite T. apply (L m' t); [right; exact Hm | exact Ht]. }
  exists (w :: ws), (idss :: idsss). cbn [all_word_lists]. rewrite E, E'. cbn [rbind]. split; [|split].
  - rewrite fill_idem. destruct models; reflexivity.
  - constructor; assumption.
  - constructor; [exact H2|]. unfold named in *. rewrite T in H4. exact H4.
Qed.
Lemma named_ids : forall d ids ws, named d ids ws -> rmapM (tok_id (d_token2id d)) (map Tok ws) = Ok ids.
Proof. intros d ids ws H. induction H as [|i w ids ws E H IH]; [reflexivity|]. cbn [map rmapM tok_id]. rewrite E. cbn [of_option rbind]. rewrite IH. reflexivity. Qed.
Lemma named_len : forall d ids ws, named d ids ws -> length ws = length ids.
Proof. intros d ids ws H. induction H; cbn; congruence. Qed.
Lemma F2_len : forall {A B} (P : A -> B -> Prop) l l', Forall2 P l l' -> length l = length l'.
Proof. intros A B P l l' H. induction H; cbn; congruence. Qed.
Lemma F2_in_r : forall {A B} (P : A -> B -> Prop) l l' y, Forall2 P l l' -> In y l' -> exists x, In x l /\ P x y.
Proof. intros A B P l l' y H. induction H as [|a b l l' Hab H IH]; [intros []|]; intros [<-|X]; [exists a; split; [left; reflexivity | exact Hab]|]. destruct (IH X) as (x & X1 & X2). exists x. split; [right; exact X1 | exact X2]. Qed.

(** [for_models] followed by the comparison of the same words: every model gets, for every length tried, the coherence of the prefixes
    of its heaviest ids, though the words of all models were counted together. *)
Theorem for_models_exact : forall {W : Type} (corpus : list (list (nat * W))) np_argsort np_argpartition, argsort_contract np_argsort -> argpartition_contract np_argpartition ->
  forall array_equal, (forall a b : list (list nat), array_equal a b = true -> a = b) ->
  forall d models topn, reachable d -> fresh d -> models <> [] -> (forall model, In model models -> model <> []) ->
  (forall model topic, In model models -> In topic model -> length topic = d_len d) -> 1 <= d_len d -> 1 <= topn ->
  2 <= list_sum (map (@length (list Q)) models) * Nat.min topn (d_len d) ->
  let N := Nat.min topn (d_len d) in
  exists d' words s s' idsss,
    all_word_lists np_argsort np_argpartition d topn models = (d', Ok words) /\
    for_models np_argsort np_argpartition array_equal d models topn = (d', Ok s) /\ c_topn s = N /\
    Forall2 (Forall2 (fun topic ids => heaviest topic topn ids)) models idsss /\
    compare_model_topics corpus (d_token2id d') (d_id2token d') array_equal s (map (map (map Tok)) words) =
      Ok (s', map (fun ts => map (fun n => u_mass_per_topic corpus (map (firstn n) ts)) (topn_grid N)) idsss).
Proof.
  intros W corpus f g Hf Hg aeq Ha d models topn R F NE NEm L D1 T1 L2 N. pose proof (reachable_inv d R) as I.
  destruct (all_models f g Hf Hg models d topn I F) as (ws & idsss & E & H1 & H2); [intros m t Hm Ht; rewrite (L m t Hm Ht); lia|].
  assert (E' : match models with [] => d | _ :: _ => fill_id2token d end = fill_id2token d) by (destruct models; [congruence | reflexivity]). rewrite E' in E. set (d' := fill_id2token d) in *.
  assert (T : d_token2id d' = d_token2id d) by apply fill_t2i.
  assert (Lt : forall ids, In ids (concat idsss) -> length ids = N).
  { intros ids Hi. apply in_concat in Hi. destruct Hi as (idss & Hi1 & Hi2). destruct (F2_in_r _ _ _ _ H1 Hi1) as (m & Hm & Fm). destruct (F2_in_r _ _ _ _ Fm Hi2) as (t & Ht & B). destruct B as (B & _). rewrite B, (L m t Hm Ht). reflexivity. }
  set (elems := map (map (map Tok)) ws).
  assert (Fe : Forall2 (Forall2 (fun ts l => rmapM (tok_id (d_token2id d')) ts = Ok l)) elems idsss).
  { unfold elems. rewrite T. clear - H2. induction H2 as [|a b l l' Hab H IH]; [constructor|]. cbn [map]. constructor; [|exact IH].
    clear - Hab. induction Hab as [|x y l l' Hxy H IH]; [constructor|]. cbn [map]. constructor; [apply named_ids; exact Hxy | exact IH]. }
  assert (Le : forall ts t, In ts elems -> In t ts -> length t = N).
  { intros ts t H3 H4. unfold elems in H3. apply in_map_iff in H3. destruct H3 as (wss & <- & H3). apply in_map_iff in H4. destruct H4 as (w & <- & H4). rewrite map_length.
    destruct (F2_in_r _ _ _ _ H2 H3) as (idss & H5 & H6). destruct (F2_in_r _ _ _ _ H6 H4) as (ids & H7 & H8). rewrite (named_len _ _ _ H8). apply Lt. apply in_concat. exists idss. split; assumption. }
  assert (Ne : forall ts, In ts elems -> ts <> []).
  { intros ts H3 ->. unfold elems in H3. apply in_map_iff in H3. destruct H3 as (wss & H3 & H4). destruct wss; [|discriminate]. destruct (F2_in_r _ _ _ _ H2 H4) as (idss & H5 & H6). inversion H6; subst.
    destruct (F2_in_r _ _ _ _ H1 H5) as (m & Hm & Fm). inversion Fm; subst. apply (NEm [] Hm). reflexivity. }
  assert (Len : length (concat (concat elems)) = list_sum (map (@length (list Q)) models) * N).
  { assert (G1 : length (concat elems) = list_sum (map (@length (list Q)) models)).
    { unfold elems. clear - H1 H2. revert ws H2. induction H1 as [|m idss models idsss Hm H IH]; intros ws H2; inversion H2 as [|? wss ? ws' Hw H2']; subst; [reflexivity|]. cbn [map concat]. rewrite app_length, (IH _ H2'), map_length.
      change (list_sum (length m :: map (@length (list Q)) models)) with (length m + list_sum (map (@length (list Q)) models)). rewrite (F2_len _ _ _ Hm), (F2_len _ _ _ Hw). reflexivity. }
    rewrite <- G1. assert (G2 : forall l : list (list elem), (forall t, In t l -> length t = N) -> length (concat l) = length l * N).
    { induction l as [|t l IH]; intros H; [reflexivity|]. cbn [concat length]. rewrite app_length, (H t (or_introl eq_refl)), IH by (intros; apply H; right; assumption). lia. }
    apply G2. intros t Ht. apply in_concat in Ht. destruct Ht as (ts & H3 & H4). apply (Le ts t); assumption. }
  destruct (for_topics_exact corpus (d_token2id d') (d_id2token d') aeq Ha elems (Some topn) N idsss) as (s & s' & A & B & C & _).
  - unfold elems. intros X. apply map_eq_nil in X. subst ws. inversion H2; subst. inversion H1; subst. congruence.
  - exact Fe.
  - unfold N. lia.
  - exact Le.
  - exact Ne.
  - rewrite Len. exact L2.
  - intros tok i G. pose proof (fill_inv d I) as I'. pose proof (fill_fresh d I F) as F'. fold d' in I', F'. destruct (inv_dense d' I') as (Dn & _ & Di). pose proof (full_cache d' i I' F' (Dn _ _ G)) as X.
    destruct (dget (d_id2token d') i) as [t|] eqn:Et; [|congruence]. f_equal. apply (Di _ _ i); [apply (i_cache _ I'); exact Et | exact G].
  - right. exists topn. split; [reflexivity | unfold N; lia].
  - exists d', ws, s, s', idsss. split; [exact E|]. split; [unfold for_models; rewrite E; cbn [rbind]; fold elems; rewrite A; reflexivity|]. split; [exact B|]. split; [exact H1 | exact C].
Qed.
Print Assumptions for_models_exact.

(** ** Examples and violations *)
Definition ex_words := word_lists ref_argsort ref_argpartition.
Definition d0 : dictionary := match d_run [OpAddDocuments [[tA; tB]; [tC; tB]] None] d_empty with Ok d => d | Err _ => d_empty end.
Example cohwords_ex : snd (ex_words d0 2 [[1#2; 1#6; 1#3]; [0; 1; 0]]%Q) = Ok [[tA; tC]; [tB; tA]] /\ d_id2token (fst (ex_words d0 2 [])) = [(0, tA); (1, tB); (2, tC)].
Proof. vm_compute. split; reflexivity. Qed.
(** The reverse map is made once and not renewed: after more documents the words of the new, larger model cannot be found; looking any
    word up in the dictionary repairs it. *)
Theorem cohwords_stale_refuted : exists d1 d2 d3 model l, reachable d1 /\ d1 = fst (ex_words d0 2 [[1; 0; 0]]%Q) /\
  d2 = fst (d_doc2bow d1 [str "new"] true false) /\ d_len d2 = 4 /\ model = [[0; 0; 0; 1]]%Q /\ snd (ex_words d2 1 model) = Err KeyError /\
  d3 = fst (d_getitem d2 0) /\ snd (ex_words d3 1 model) = Ok l /\ l = [[str "new"]].
Proof.
  do 5 eexists. split; [exists [OpAddDocuments [[tA; tB]; [tC; tB]] None; OpGetitem 0]; vm_compute; reflexivity|]. split; [vm_compute; reflexivity|].
  split; [reflexivity|]. split; [vm_compute; reflexivity|]. split; [reflexivity|]. split; [vm_compute; reflexivity|]. split; [reflexivity|]. split; vm_compute; reflexivity.
Qed.
