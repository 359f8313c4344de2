(** Theorems about models/phrases.py. *)
From Coq Require Import List Arith Lia Bool ZArith NArith QArith Permutation String.
From Verif Require Import Base Str Utils_Model Utils_Proofs Phrases_Model Phrases_Spec Phrases_Proofs.
Import ListNotations.
Close Scope Q_scope. Close Scope string_scope.
Local Open Scope nat_scope.

(** ** C33: detection only joins adjacent tokens *)

(** For every judge of candidates, the loop computes the leftmost-first reading. *)
Theorem phrases_reading : forall {St} cw (judge : St -> pystr -> pystr -> list pystr -> St * option (pystr * score)) st s,
  Forall (fun w => In w cw \/ w <> []) s ->
  exists st' g, parse (fun w => In w cw) judge st s st' g /\ analyze_sentence cw judge st s = (st', map shown g).
Proof.
  intros St cw judge st s F. destruct (analyze_parse_aux cw judge s st None [] F) as (st' & g & P & E); auto; [discriminate|].
  exists st', g. auto.
Qed.
Print Assumptions phrases_reading.

(** The output cut back into tokens is the sentence. *)
Definition reads_as (cw : list pystr) (delim : pystr) (out : list (pystr * option score)) (s : list pystr) : Prop :=
  exists segs, concat segs = s /\
    Forall2 (fun ws o =>
      (exists w, ws = [w] /\ o = (w, None)) \/
      (exists a mid b sc, ws = a :: mid ++ [b] /\ ~ In a cw /\ ~ In b cw /\ Forall (fun w => In w cw) mid /\
        o = (join delim ws, Some sc))) segs out.

Lemma reads_as_generic {St} cw delim (judge : St -> pystr -> pystr -> list pystr -> St * option (pystr * score)) st s :
  (forall st a b mid st' name s, judge st a b mid = (st', Some (name, s)) -> name = join delim (a :: mid ++ [b])) ->
  Forall (fun w => In w cw \/ w <> []) s -> reads_as cw delim (snd (analyze_sentence cw judge st s)) s.
Proof.
  intros HJ F. destruct (phrases_reading cw judge st s F) as (st' & g & P & E). rewrite E. cbn [snd].
  pose proof (parse_segs cw judge (fun a b mid name _ => name = join delim (a :: mid ++ [b])) HJ _ _ _ _ P) as G.
  apply parse_cover in P. exists (map fst g). split; [exact P|]. clear P E.
  induction G as [|x g Hx G IH]; cbn [map]; constructor; auto.
  destruct x as [ws [[name sc]|]]; cbn in *.
  - right. destruct Hx as (a & mid & b & -> & Na & Nb & Fm & ->). exists a, mid, b, sc. repeat split; auto.
  - left. destruct Hx as [w ->]. exists w. auto.
Qed.

Theorem phrases_cover : forall p s, Forall (fun w => In w (p_connectors p) \/ w <> []) s ->
  reads_as (p_connectors p) (p_delim p) (snd (live_analyze p s)) s.
Proof.
  intros p s F. unfold live_analyze.
  (* the delimiter never changes *)
  set (j := fun q a b mid => score_candidate (mkPhrases (p_connectors p) (p_scoring p) (p_min_count p) (p_threshold p) (p_max_vocab p)
      (p_vocab q) (p_min_reduce p) (p_delim p) (p_words p)) a b mid).
  assert (E : snd (analyze_sentence (p_connectors p) score_candidate p s) = snd (analyze_sentence (p_connectors p) j p s)).
  { apply (analyze_sim (fun q1 q2 => q1 = q2 /\ same_static q1 p) (fun _ => True)); auto; try (apply Forall_forall; auto).
    - intros q1 q2 a b mid [<- SS] _ _ _. assert (Q : j q1 a b mid = score_candidate q1 a b mid).
      { unfold j. destruct SS as (A1 & A2 & A3 & A4 & A5 & A6 & A7 & A8). destruct q1. simpl in *. subst. reflexivity. }
      rewrite Q. split; [|reflexivity]. split; [reflexivity|].
      destruct (score_candidate_spec q1 a b mid) as (v' & Es & _). rewrite Es. destruct SS as (A1 & A2 & A3 & A4 & A5 & A6 & A7 & A8). repeat split; auto.
    - split; [reflexivity|]. repeat split. }
  rewrite E. apply reads_as_generic; auto. intros st a b mid st' name sc H. unfold j in H.
  destruct (score_candidate_spec (mkPhrases (p_connectors p) (p_scoring p) (p_min_count p) (p_threshold p) (p_max_vocab p)
      (p_vocab st) (p_min_reduce p) (p_delim p) (p_words p)) a b mid) as (v' & Es & _). rewrite Es in H. injection H as _ H.
  unfold pure_score in H. destruct (_ || _ || _); [discriminate|]. destruct (score_le _ _); [discriminate|]. injection H as <- _. reflexivity.
Qed.
Print Assumptions phrases_cover.

Theorem frozen_cover : forall f s, Forall (fun w => In w (f_connectors f) \/ w <> []) s ->
  reads_as (f_connectors f) (f_delim f) (frozen_analyze f s) s.
Proof.
  intros f s F. unfold frozen_analyze.
  set (j := fun (_ : frozen) a b mid => frozen_score f a b mid).
  assert (E : snd (analyze_sentence (f_connectors f) frozen_score f s) = snd (analyze_sentence (f_connectors f) j f s)).
  { apply (analyze_sim (fun q1 q2 => q1 = f /\ q2 = f) (fun _ => True)); auto; try (apply Forall_forall; auto).
    intros q1 q2 a b mid [-> ->] _ _ _. unfold j, frozen_score. destruct (score_gt _ _); auto. }
  rewrite E. apply reads_as_generic; auto. intros st a b mid st' name sc H. unfold j, frozen_score in H.
  destruct (score_gt _ _); [|discriminate]. injection H as _ <- _. reflexivity.
Qed.
Print Assumptions frozen_cover.

Definition us : pystr := str "_".
Definition sent (l : list string) : list pystr := map str l.
Definition ex_conn : list pystr := sent ["of"; "the"]%string.
Definition base_phrases (sc : scorer) (min_count threshold : Q) (maxv : Z) : phrases :=
  mkPhrases ex_conn sc min_count threshold maxv [] 1 us 0.
Definition trained (sc : scorer) (min_count threshold : Q) (ss : list (list string)) : phrases :=
  match add_vocab (base_phrases sc min_count threshold 1000) (map sent ss) with Ok p => p | Err _ => base_phrases sc 1 1 0 end.
Definition half : Q := (1 # 2)%Q.

Example phrases_cover_ex :
  snd (live_analyze (trained original_scorer half 1 [["bank"; "of"; "the"; "west"]]%string) (sent ["of"; "bank"; "of"; "the"; "west"; "bank"; "the"]%string)) =
  [(str "of", None); (str "bank_of_the_west", Some (Fin ((inQ 1 - half) / inQ 1 * inQ 3)%Q)); (str "bank", None); (str "the", None)].
Proof. vm_compute. reflexivity. Qed.

(** An empty token is silently dropped. *)
Theorem phrases_empty_token_refuted : exists f s, map fst (frozen_analyze f s) = sent ["a"]%string /\ s = sent [""; "a"]%string.
Proof. exists (mkFrozen [] 1 us []), (sent [""; "a"]%string). vm_compute. auto. Qed.
Print Assumptions phrases_empty_token_refuted.

(** ** C34: counts *)
Theorem learn_vocab_counts : forall ss maxv delim cw, exists m v t,
  learn_vocab ss maxv delim cw = Ok (m, v, t) /\ 1 <= m /\ NoDup (dkeys v) /\
  t = list_sum_nat (map (@List.length _) ss) /\
  (forall k, In k (dkeys v) -> 1 <= dget_or v k 0) /\
  (forall k, dget_or v k 0 <= corpus_count cw delim ss k /\
             2 * corpus_count cw delim ss k <= 2 * dget_or v k 0 + (m - 1) * (m - 2)).
Proof.
  intros ss maxv delim cw. destruct (learn_vocab_ok cw delim maxv ss) as (m & v & t & E & M & ND & P & T & C).
  exists m, v, t. repeat (split; auto).
Qed.
Print Assumptions learn_vocab_counts.

Theorem learn_vocab_exact : forall ss maxv delim cw K,
  (forall k, 1 <= corpus_count cw delim ss k -> In k K) -> (Z.of_nat (List.length K) <= maxv)%Z ->
  exists v, learn_vocab ss maxv delim cw = Ok (1, v, list_sum_nat (map (@List.length _) ss)) /\
    forall k, dget_or v k 0 = corpus_count cw delim ss k.
Proof.
  intros ss maxv delim cw K HK HL. destruct (learn_vocab_noprune cw delim maxv ss K HK HL) as (v & E & I). exists v. split; [exact E|].
  intros k. destruct I as (_ & _ & _ & _ & C). specialize (C k). unfold cnt in C. lia.
Qed.
Print Assumptions learn_vocab_exact.

Example learn_vocab_ex :
  let ss := [sent ["a"; "of"; "b"; "c"]%string; sent ["a"; "of"; "b"]%string] in
  learn_vocab ss 100 us ex_conn = Ok (1, [(str "a", 2); (str "b", 2); (str "a_of_b", 2); (str "c", 1); (str "b_c", 1)], 7) /\
  corpus_count ex_conn us ss (str "a_of_b") = 2 /\ corpus_count ex_conn us ss (str "of") = 0 /\
  learn_vocab ([sent ["z"]; sent ["y"]]%string ++ ss) 2 us ex_conn = Ok (3, [(str "a", 2); (str "b", 2); (str "a_of_b", 2)], 9).
Proof. vm_compute. auto. Qed.

(** The model object after any history of training, transforming and exporting. *)
Theorem phrases_counts_upper : forall p0 ops, p_vocab p0 = [] -> p_words p0 = 0 -> p_delim p0 <> [] -> Forall (clean_op (p_delim p0)) ops ->
  exists p, prun ops p0 = Ok p /\ p_words p = list_sum_nat (map (@List.length _) (padded ops)) /\
    forall k, dget_or (p_vocab p) k 0 <= corpus_count (p_connectors p0) (p_delim p0) (padded ops) k.
Proof.
  intros p0 ops H0 H1 D F. destruct (prun_ok p0 ops H0 H1 D F) as (p & E & I). exists p. split; [exact E|]. split; [apply I|]. apply I.
Qed.
Print Assumptions phrases_counts_upper.

Theorem phrases_counts_exact : forall p0 sss K, p_vocab p0 = [] ->
  (forall k, 1 <= corpus_count (p_connectors p0) (p_delim p0) (concat sss) k -> In k K) -> (Z.of_nat (List.length K) <= p_max_vocab p0)%Z ->
  exists p, prun (map PAdd sss) p0 = Ok p /\
    forall k, dget_or (p_vocab p) k 0 = corpus_count (p_connectors p0) (p_delim p0) (concat sss) k.
Proof.
  intros p0 sss K H0 HK HL.
  assert (G : forall l pre p, concat (pre ++ l) = concat sss -> config p p0 -> NoDup (dkeys (p_vocab p)) ->
    (forall k, In k (dkeys (p_vocab p)) -> 1 <= cnt (p_vocab p) k) ->
    (forall k, cnt (p_vocab p) k = corpus_count (p_connectors p0) (p_delim p0) (concat pre) k) ->
    exists p', prun (map PAdd l) p = Ok p' /\ forall k, cnt (p_vocab p') k = corpus_count (p_connectors p0) (p_delim p0) (concat sss) k).
  { induction l as [|ss l IH]; intros pre p EQ CF ND P C.
    - exists p. split; [reflexivity|]. rewrite app_nil_r in EQ. rewrite <- EQ. exact C.
    - cbn [map prun rfold pstep]. unfold add_vocab. pose proof CF as (C1 & C2 & C3 & C4 & C5 & C6). rewrite C1, C5, C6.
      assert (EQ2 : concat sss = concat pre ++ ss ++ concat l) by (rewrite <- EQ, concat_app; reflexivity).
      destruct (learn_vocab_noprune (p_connectors p0) (p_delim p0) (p_max_vocab p0) ss K) as (v & E & _ & NDv & Pv & _ & Cv); auto.
      { intros k Hk. apply HK. rewrite EQ2, !corpus_count_app. lia. }
      rewrite E. cbn [rbind].
      assert (Cv' : forall k, cnt v k = corpus_count (p_connectors p0) (p_delim p0) ss k) by (intros k; specialize (Cv k); lia).
      assert (EQ3 : concat ((pre ++ [ss]) ++ l) = concat sss) by (rewrite EQ2, !concat_app; simpl; rewrite app_nil_r, <- app_assoc; reflexivity).
      assert (CA : forall k, corpus_count (p_connectors p0) (p_delim p0) (concat (pre ++ [ss])) k =
         corpus_count (p_connectors p0) (p_delim p0) (concat pre) k + corpus_count (p_connectors p0) (p_delim p0) ss k).
      { intros k. rewrite concat_app, corpus_count_app. simpl. rewrite app_nil_r. reflexivity. }
      assert (SM : forall v m w, config (mkPhrases (p_connectors p0) (p_scoring p) (p_min_count p) (p_threshold p) (p_max_vocab p0) v m (p_delim p0) w) p0).
      { intros. repeat split; auto. }
      destruct (p_vocab p) as [|kv v0] eqn:EV.
      + cbn [rbind]. apply (IH (pre ++ [ss])); auto.
        intros k. rewrite CA. cbn [p_vocab]. rewrite Cv', <- (C k). reflexivity.
      + rewrite <- EV in *. set (mg := fold_left (fun d kc => incr d (fst kc) (snd kc)) v (p_vocab p)) in *.
        destruct (fold_incr v (p_vocab p) NDv) as [N M]. fold mg in N, M.
        assert (Pm : forall k, In k (dkeys mg) -> 1 <= cnt mg k).
        { intros k Hk. destruct (M k) as [M1 M2]. apply M2 in Hk. rewrite M1. destruct Hk as [Hk|Hk]; [specialize (P k Hk)|specialize (Pv k Hk)]; lia. }
        assert (LE : List.length mg <= List.length K).
        { apply keys_le_cover; auto. intros k Hk. apply HK. rewrite EQ2, !corpus_count_app. specialize (Pm k Hk). destruct (M k) as [M1 _]. rewrite C, Cv' in M1. lia. }
        destruct (Z.ltb_spec (p_max_vocab p0) (Z.of_nat (List.length mg))); [lia|]. cbn [rbind].
        apply (IH (pre ++ [ss])); cbn [p_vocab]; auto.
        intros k. rewrite CA. destruct (M k) as [M1 _]. rewrite M1, C, Cv'. reflexivity. }
  apply (G sss [] p0); auto.
  - repeat split.
  - rewrite H0. constructor.
  - rewrite H0. simpl. tauto.
  - rewrite H0. intros k. reflexivity.
Qed.
Print Assumptions phrases_counts_exact.

(** ** C35: frozen models *)
Theorem freeze_total : forall p0 ops, p_vocab p0 = [] -> p_words p0 = 0 -> p_delim p0 <> [] -> Forall (clean_op (p_delim p0)) ops ->
  exists p f, prun ops p0 = Ok p /\ freeze p = Ok f /\ export_phrases p = Ok (p, f_grams f) /\
    (no_nan (p_scoring p0) -> forall a b mid, clean (p_delim p0) a -> clean (p_delim p0) b -> Forall (clean (p_delim p0)) mid ->
      snd (frozen_score f a b mid) = snd (score_candidate p a b mid)).
Proof.
  intros p0 ops H0 H1 D F. destruct (prun_ok p0 ops H0 H1 D F) as (p & E & I). pose proof (pi_cfg _ _ _ I) as (C1 & C2 & C3 & C4 & C5 & C6).
  pose proof (pi_v _ _ _ I) as V. rewrite <- C6 in V, D.
  destruct (freeze_ok p D V) as (Ex & f & Ef & _). exists p, f. split; [exact E|]. split; [exact Ef|]. rewrite Ex, Ef. split; [reflexivity|].
  intros NN a b mid Ca Cb Cm. rewrite <- C2 in NN. rewrite <- C6 in Ca, Cb, Cm.
  destruct (frozen_pointwise p f a b mid D V NN Ef Ca Cb Cm) as [-> _]. destruct (score_candidate_spec p a b mid) as (v' & Es & _). rewrite Es. reflexivity.
Qed.
Print Assumptions freeze_total.

(** The live model's answers to a series of sentences. *)
Fixpoint live_outputs (p : phrases) (ss : list (list pystr)) : list (list (pystr * option score)) :=
  match ss with
  | [] => []
  | s :: rest => let (p', out) := live_analyze p s in out :: live_outputs p' rest
  end.

Theorem freeze_same : forall p0 ops, p_vocab p0 = [] -> p_words p0 = 0 -> p_delim p0 <> [] -> Forall (clean_op (p_delim p0)) ops ->
  no_nan (p_scoring p0) -> (forall a b ab n n' mc w, p_scoring p0 a b ab n mc w = p_scoring p0 a b ab n' mc w) ->
  exists p f, prun ops p0 = Ok p /\ freeze p = Ok f /\
    forall ss, Forall (Forall (clean (p_delim p0))) ss -> live_outputs p ss = map (frozen_analyze f) ss.
Proof.
  intros p0 ops H0 H1 D F NN LI. destruct (prun_ok p0 ops H0 H1 D F) as (p & E & I). pose proof (pi_cfg _ _ _ I) as (C1 & C2 & C3 & C4 & C5 & C6).
  pose proof (pi_v _ _ _ I) as V. rewrite <- C6 in V, D. rewrite <- C2 in NN.
  destruct (freeze_ok p D V) as (_ & f & Ef & Fc & _). exists p, f. split; [exact E|]. split; [exact Ef|].
  assert (G : forall ss q, equiv q p -> Forall (Forall (clean (p_delim p0))) ss -> live_outputs q ss = map (frozen_analyze f) ss).
  { induction ss as [|s ss IH]; intros q EQ Fs; [reflexivity|]. inversion Fs; subst. cbn [live_outputs map].
    pose proof (analyze_sim (fun q1 q2 => equiv q1 p /\ q2 = f) (clean (p_delim p0)) (p_connectors p) score_candidate frozen_score) as S.
    destruct S with (s := s) (s1 := q) (s2 := f) (start := @None pystr) (mid := @nil pystr) as [[A _] B]; auto; try discriminate.
    { intros q1 q2 a b mid [[SS CC] ->] Ca Cb Cm. rewrite <- C6 in Ca, Cb, Cm.
      destruct (frozen_pointwise p f a b mid D V NN Ef Ca Cb Cm) as [P1 P2]. rewrite P1, P2.
      destruct (score_candidate_spec q1 a b mid) as (v' & Es & Cv & _). rewrite Es. cbn [fst snd].
      destruct SS as (A1 & A2 & A3 & A4 & A5 & A6 & A7 & A8). split; [split; [|reflexivity]|].
      - split; [repeat split; auto|]. intros k. cbn [p_vocab with_vocab]. rewrite Cv. apply CC.
      - unfold pure_score. rewrite A7, A2, A3, A4, A8, !CC. destruct (_ || _ || _); [reflexivity|].
        rewrite C2, (LI _ _ _ (List.length (p_vocab q1)) (List.length (p_vocab p))). reflexivity. }
    unfold live_analyze, frozen_analyze at 1, analyze_sentence. destruct EQ as [SS CC]. pose proof SS as (A1 & _). rewrite A1, Fc.
    destruct (analyze (p_connectors p) score_candidate q None [] s) as [q' out]. cbn [fst snd] in *. rewrite B. f_equal. apply IH; auto. }
  intros ss Fs. apply G; auto. split; [repeat split|reflexivity].
Qed.
Print Assumptions freeze_same.

(** A scorer that does not look at the vocabulary size. *)
Definition ratio_scorer : scorer := fun a b ab _ mc _ => if (a * b =? 0)%nat then NegInf else Fin (inQ ab / inQ (a * b))%Q.
Example freeze_same_ex :
  let p := trained ratio_scorer half (1#4) [["a"; "of"; "b"; "c"]; ["c"; "b"]]%string in
  exists f, freeze p = Ok f /\
    live_outputs p [sent ["x"; "a"; "of"; "b"]%string; sent ["b"; "c"; "of"]%string] =
    [[(str "x", None); (str "a_of_b", Some (Fin (inQ 1 / inQ 2)%Q))]; [(str "b", None); (str "c", None); (str "of", None)]] /\
    map (frozen_analyze f) [sent ["x"; "a"; "of"; "b"]%string; sent ["b"; "c"; "of"]%string] =
    [[(str "x", None); (str "a_of_b", Some (Fin (inQ 1 / inQ 2)%Q))]; [(str "b", None); (str "c", None); (str "of", None)]].
Proof. eexists. vm_compute. auto. Qed.

(** With the default scorer the live model disagrees with its frozen copy, and with itself: looking up unknown
    words adds them to the vocabulary, whose size is part of the score. *)
Theorem freeze_default_refuted : exists p f s, freeze p = Ok f /\ p = trained original_scorer half (8#5) [["a"; "b"]]%string /\
  map fst (frozen_analyze f s) = s /\ map fst (snd (live_analyze p s)) <> s.
Proof.
  exists (trained original_scorer half (8#5) [["a"; "b"]]%string).
  eexists. exists (sent ["x"; "y"; "a"; "b"]%string). split; [vm_compute; reflexivity|]. split; [reflexivity|].
  split; [vm_compute; reflexivity|]. vm_compute. discriminate.
Qed.
Print Assumptions freeze_default_refuted.

Theorem live_repeat_refuted : exists p s, p = trained original_scorer half (8#5) [["a"; "b"]]%string /\
  live_outputs p [s; s] <> [snd (live_analyze p s); snd (live_analyze p s)].
Proof.
  exists (trained original_scorer half (8#5) [["a"; "b"]]%string), (sent ["a"; "b"; "x"; "y"]%string).
  split; [reflexivity|]. vm_compute. discriminate.
Qed.
Print Assumptions live_repeat_refuted.

(** A scorer returning NaN: accepted live ("nan <= threshold" is false), never frozen in ("nan > threshold" is false too). *)
Theorem freeze_nan_refuted : exists p f s, freeze p = Ok f /\ frozen_analyze f s <> snd (live_analyze p s).
Proof.
  exists (trained (fun _ _ _ _ _ _ => NaN) half 1 [["a"; "b"]]%string). eexists. exists (sent ["a"; "b"]%string).
  split; [vm_compute; reflexivity|]. vm_compute. discriminate.
Qed.
Print Assumptions freeze_nan_refuted.

(** One training token containing the delimiter makes the export (and so [freeze]) fail. *)
Theorem freeze_delimiter_refuted : exists p, p = trained original_scorer half 1 [["new_york"; "city"]]%string /\ freeze p = Err RuntimeErr.
Proof. eexists. split; [reflexivity|]. vm_compute. reflexivity. Qed.
Print Assumptions freeze_delimiter_refuted.

(** ** C57: loading a saved frozen model *)
Theorem load_frozen_same : forall f, f_connectors f = [] -> load_frozen (save_frozen f) = f.
Proof.
  intros [c t d g] H. cbn in H. subst c. unfold load_frozen, save_frozen. cbn. f_equal.
  destruct g as [|[k s] g]; [reflexivity|]. cbn. f_equal. rewrite map_map. cbn. induction g as [|[k' s'] g IH]; [reflexivity|]. cbn. f_equal. exact IH.
Qed.
Print Assumptions load_frozen_same.
(** Files with (frequency, score) values and [common_terms], as old versions wrote them, load completely. *)
Theorem load_frozen_old : forall grams common t d,
  NoDup (map (fun kv : list pystr * (nat * score) => join d (fst kv)) grams) ->
  load_frozen (mkPickled (map (fun kv => (GTuple (fst kv), GPair (fst (snd kv)) (snd (snd kv)))) grams) (Some common) None t d) =
  mkFrozen common t d (map (fun kv => (join d (fst kv), snd (snd kv))) grams).
Proof.
  intros grams common t d ND. unfold load_frozen. cbn. f_equal.
  destruct grams as [|[k [n s]] grams]; [reflexivity|]. unfold upgrade_grams. cbn [map fst snd].
  change ((gram_name d (GTuple k), val_score (GPair n s)) :: map (fun kv => (gram_name d (fst kv), val_score (snd kv)))
    (map (fun kv : list pystr * (nat * score) => (GTuple (fst kv), GPair (fst (snd kv)) (snd (snd kv)))) grams))
    with (map (fun kv => (gram_name d (fst kv), val_score (snd kv)))
    (map (fun kv : list pystr * (nat * score) => (GTuple (fst kv), GPair (fst (snd kv)) (snd (snd kv)))) ((k, (n, s)) :: grams))).
  rewrite map_map. cbn [fst snd gram_name val_score]. rewrite dict_of_NoDup; [reflexivity|]. rewrite map_map. exact ND.
Qed.
Print Assumptions load_frozen_old.

(** A model saved by this version loses its connector words. *)
Theorem load_connectors_refuted : exists f s, map fst (frozen_analyze f s) = sent ["bank_of_america"]%string /\
  frozen_analyze (load_frozen (save_frozen f)) s <> frozen_analyze f s.
Proof.
  exists (mkFrozen (sent ["of"]%string) 1 us [(str "bank_of_america", Fin 2)]), (sent ["bank"; "of"; "america"]%string).
  split; [vm_compute; reflexivity|]. vm_compute. discriminate.
Qed.
Print Assumptions load_connectors_refuted.
(** A file with tuple keys and plain scores keeps only its first phrase. *)
Theorem load_tuple_keys_refuted : exists g, List.length g = 2 /\ NoDup (map fst g) /\
  load_frozen (mkPickled g (Some []) None 1 us) = mkFrozen [] 1 us [(str "a_b", Fin 2)].
Proof.
  exists [(GTuple (sent ["a"; "b"]%string), GScore (Fin 2)); (GTuple (sent ["c"; "d"]%string), GScore (Fin 3))].
  split; [reflexivity|]. split; [|vm_compute; reflexivity].
  repeat constructor; simpl; intuition discriminate.
Qed.
Print Assumptions load_tuple_keys_refuted.

(** ** C58: with the default scorer every detected phrase is frequent *)
Theorem default_phrase_frequent : forall p0 ops, p_vocab p0 = [] -> p_words p0 = 0 -> p_delim p0 <> [] -> Forall (clean_op (p_delim p0)) ops ->
  p_scoring p0 = original_scorer -> (0 < p_threshold p0)%Q ->
  exists p, prun ops p0 = Ok p /\
    forall a b mid name sc, snd (score_candidate p a b mid) = Some (name, sc) ->
      (p_min_count p0 < inject_Z (Z.of_nat (corpus_count (p_connectors p0) (p_delim p0) (padded ops) name)))%Q.
Proof.
  intros p0 ops H0 H1 D F HS HT. destruct (prun_ok p0 ops H0 H1 D F) as (p & E & I). exists p. split; [exact E|].
  intros a b mid name sc Hs. destruct (score_candidate_spec p a b mid) as (v' & Es & _). rewrite Es in Hs. cbn [snd] in Hs.
  pose proof (pi_cfg _ _ _ I) as (C1 & C2 & C3 & C4 & C5 & C6). unfold pure_score in Hs.
  destruct (_ || _ || _) eqn:Z; [discriminate|]. apply Bool.orb_false_elim in Z. destruct Z as [Z Z3]. apply Bool.orb_false_elim in Z. destruct Z as [Z1 Z2].
  apply Nat.eqb_neq in Z1, Z2, Z3. set (ph := join (p_delim p) (a :: mid ++ [b])) in *.
  destruct (score_le _ _) eqn:L; [discriminate|]. injection Hs as <- _.
  rewrite C2, HS, C3, C4 in L. unfold original_scorer in L. set (den := cnt (p_vocab p) a * cnt (p_vocab p) b) in *.
  assert (DP : 1 <= den) by (unfold den; nia). destruct (Nat.eqb_spec den 0); [lia|]. cbn [score_le] in L.
  apply Bool.not_true_iff_false in L. rewrite Qle_bool_iff in L. apply Qnot_le_lt in L.
  assert (P1 : (0 < (inQ (cnt (p_vocab p) ph) - p_min_count p0) / inQ den * inQ (List.length (p_vocab p)))%Q) by (eapply Qlt_trans; eauto).
  assert (P2 : (0 < inQ (cnt (p_vocab p) ph) - p_min_count p0)%Q).
  { apply Qnot_le_lt. intros N. apply (Qlt_not_le _ _ P1). unfold Qdiv.
    assert (DI : (0 <= / inQ den)%Q) by (apply Qinv_le_0_compat; unfold inQ, Qle; simpl; lia).
    assert (LI : (0 <= inQ (List.length (p_vocab p)))%Q) by (unfold inQ, Qle; simpl; lia).
    setoid_replace 0%Q with (0 * inQ (List.length (p_vocab p)))%Q by ring. apply Qmult_le_compat_r; [|exact LI].
    setoid_replace 0%Q with (0 * / inQ den)%Q by ring. apply Qmult_le_compat_r; auto. }
  apply (Qlt_le_trans _ (inQ (cnt (p_vocab p) ph))).
  - apply Qlt_minus_iff. exact P2.
  - unfold inQ. rewrite <- Zle_Qle. pose proof (pi_le _ _ _ I ph). lia.
Qed.
Print Assumptions default_phrase_frequent.
Example default_phrase_frequent_ex :
  let p := trained original_scorer 1 (1#2) [["a"; "b"; "c"]; ["a"; "b"]]%string in
  snd (score_candidate p (str "a") (str "b") []) <> None /\ snd (score_candidate p (str "b") (str "c") []) = None.
Proof. vm_compute. split; [discriminate|reflexivity]. Qed.
