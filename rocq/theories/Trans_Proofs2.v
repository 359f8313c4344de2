(** Translating. *)
From Coq Require Import Reals Lra Psatz Lia Permutation.
From Verif Require Import Base Str LdaTrain_Model LdaTrain_Proofs2 SoftCosine_Model Lsi_Linear Trans_Model Trans_Spec Trans_Proofs AtMaps_Proofs.
Local Open Scope R_scope.

Lemma rmapM_at : forall {A B} (f : A -> result B) l x e, (forall y, In y l -> exists r, f y = Ok r \/ f y = Err e) -> In x l -> f x = Err e -> rmapM f l = Err e.
Proof.
  intros A B f l. induction l as [|y l IH]; intros x e H I E; [contradiction|]. cbn [rmapM]. destruct (H y (or_introl eq_refl)) as [r [F|F]]; rewrite F; cbn [rbind]; [|reflexivity].
  destruct I as [<-|I]; [congruence|]. rewrite (IH x e); [reflexivity | intros z Hz; apply H; now right | exact I | exact E].
Qed.
Section Translate.
Variables d1 d2 : nat.
Variable order : list pystr -> list pystr.
Variable argsort : list R -> list nat.
Hypothesis HO : set_order order.
Hypothesis HA : sorts argsort.

Lemma pick_ok : forall m (f : pystr -> R) words n, (n <= length words)%nat -> pick_words (mkSpace m words) (argsort (map f words)) n = Ok (map (fun i => nth i words []) (firstn n (argsort (map f words)))).
Proof.
  intros m f words n Hn. unfold pick_words. set (idx := argsort (map f words)). assert (LI : length idx = length words) by (unfold idx; rewrite (argsort_length _ HA); apply map_length).
  assert (LT : forall i, (i < length words)%nat -> (nth i idx 0 < length words)%nat) by (intros i Hi; pose proof (argsort_lt _ HA (map f words) i) as X; rewrite map_length in X; now apply X).
  rewrite (rmapM_fun _ (fun j => nth (nth j idx 0%nat) words [])).
  - f_equal. apply nth_ext with (d := nth (nth 0 idx 0%nat) words []) (d' := nth 0%nat words []); [rewrite !map_length, seq_length, firstn_length; lia|]. intros i Hi. rewrite map_length, seq_length in Hi.
    rewrite (map_nth (fun j => nth (nth j idx 0%nat) words [])), (map_nth (fun i => nth i words [])). rewrite seq_nth by exact Hi. now rewrite firstn_nth.
  - intros j Hj. apply in_seq in Hj. rewrite (nth_error_nth' idx 0%nat) by lia. cbn [sp_words]. rewrite (nth_error_nth' words []) by (apply LT; lia). reflexivity.
Qed.
Lemma pick_short : forall m (f : pystr -> R) words n, (length words < n)%nat -> pick_words (mkSpace m words) (argsort (map f words)) n = Err IndexError.
Proof.
  intros m f words n Hn. unfold pick_words. set (idx := argsort (map f words)). assert (LI : length idx = length words) by (unfold idx; rewrite (argsort_length _ HA); apply map_length).
  apply (rmapM_at _ _ (length words)).
  - intros j Hj. destruct (nth_error idx j) as [i|]; [|exists []; now right]. destruct (nth_error (sp_words _) i) as [w|]; [exists w; now left | exists []; now right].
  - apply in_seq. lia.
  - rewrite (proj2 (nth_error_None idx (length words))) by lia. reflexivity.
Qed.
(** What the words are ordered by *)
Definition sc (W : mat) (src tgt : vectors) (x t : pystr) : R := score d1 d2 W (vector src x) (vector tgt t).
Definition rank (W : mat) (src tgt : vectors) (lex : list pystr) (c : nat) (t : pystr) : nat := nth c (argsort (map INR (argsort (map (fun x => - sc W src tgt x t) lex)))) 0%nat.
Definition badness (gc : bool) (W : mat) (src tgt : vectors) (lex : list pystr) (c : nat) (w t : pystr) : R :=
  if gc then INR (rank W src tgt lex c t) + - sc W src tgt w t else - sc W src tgt w t.
Lemma sims_eq : forall W src tgt lex, sim_matrix d2 (mkSpace (map (unit d2) (map (vector tgt) (dkeys tgt))) (dkeys tgt)) (apply_transmat d1 W (mkSpace (map (unit d1) (map (vector src) lex)) lex))
  = map (fun t => map (fun x => - sc W src tgt x t) lex) (dkeys tgt).
Proof. intros W src tgt lex. unfold sim_matrix, apply_transmat. cbn [sp_mat]. rewrite !map_map. apply map_ext. intros t. rewrite !map_map. reflexivity. Qed.
Lemma column_eq : forall gc W src tgt lex c w, nth_error lex c = Some w ->
  column c ((if gc : bool then map (corrected argsort) else fun m => m) (map (fun t => map (fun x => - sc W src tgt x t) lex) (dkeys tgt))) = map (badness gc W src tgt lex c w) (dkeys tgt).
Proof.
  intros gc W src tgt lex c w E. assert (Hc : (c < length lex)%nat) by (apply nth_error_Some; congruence).
  assert (RV : forall t, nth c (map (fun x => - sc W src tgt x t) lex) 0 = - sc W src tgt w t) by (intros t; apply nth_error_nth; now rewrite nth_error_map, E).
  destruct gc; unfold column, badness; rewrite ?map_map; apply map_ext; intros t; [|apply RV].
  unfold corrected. set (row := map (fun x => - sc W src tgt x t) lex) in *. assert (Lr : length row = length lex) by apply map_length.
  assert (LQ : length (argsort (map INR (argsort row))) = length row) by (rewrite (argsort_length _ HA), map_length; apply (argsort_length _ HA)).
  rewrite (nth_indep _ 0 (INR (fst (0%nat, 0)) + snd (0%nat, 0))) by (rewrite map_length, combine_length; lia).
  rewrite (map_nth (fun rs : nat * R => INR (fst rs) + snd rs)), combine_nth by exact LQ. cbn [fst snd]. f_equal. apply RV.
Qed.
Lemma translate_inv : forall W src tgt words topn gc sample_num draw res, translate d1 d2 order argsort W src tgt words topn gc sample_num draw = Ok res ->
  exists lex, (if gc then gc_lexicon order src words sample_num draw else Ok words) = Ok lex /\ lex <> [] /\ tgt <> [] /\ (forall w, In w lex -> In w (dkeys src)) /\
    (forall k, In k (dkeys res) <-> In k words) /\ (words <> [] -> (topn <= length tgt)%nat) /\
    forall w, In w words -> exists c, nth_error lex c = Some w /\ dget res w = Some (map (fun i => nth i (dkeys tgt) []) (firstn topn (argsort (map (badness gc W src tgt lex c w) (dkeys tgt))))).
Proof.
  intros W src tgt words topn gc sample_num draw res H. unfold translate in H. destruct (if gc then gc_lexicon order src words sample_num draw else Ok words) as [lex|e]; [|discriminate]. cbn [rbind] in H. exists lex.
  destruct (build src (Some lex)) as [s|e] eqn:Es; [|discriminate]. apply build_inv in Es. destruct Es as [KS ->]. cbn [rbind] in H.
  change (build tgt None) with (build tgt (Some (dkeys tgt))) in H. rewrite build_ok in H by (intros w I; exact I). cbn [rbind] in H.
  destruct (normalize d1 _) as [s|e] eqn:Es; [|discriminate]. apply normalize_inv in Es. destruct Es as [N1 ->]. cbn [rbind sp_mat sp_words] in *.
  destruct (normalize d2 _) as [s|e] eqn:Es; [|discriminate]. apply normalize_inv in Es. destruct Es as [N2 ->]. cbn [rbind sp_mat sp_words] in *. rewrite sims_eq in H.
  assert (N3 : lex <> []) by (intros E; subst lex; now apply N1). assert (N4 : tgt <> []) by (intros E; subst tgt; now apply N2).
  destruct (rmapM _ words) as [l|e] eqn:El; [|discriminate]. cbn [rbind] in H. injection H as <-. apply rmapM_all2 in El.
  assert (CE : forall c w, nth_error lex c = Some w -> column c (if gc then map (corrected argsort) (map (fun t => map (fun x => - sc W src tgt x t) lex) (dkeys tgt)) else map (fun t => map (fun x => - sc W src tgt x t) lex) (dkeys tgt))
    = map (badness gc W src tgt lex c w) (dkeys tgt)) by (intros c w E; rewrite <- (column_eq gc W src tgt lex c w E); now destruct gc).
  assert (EN : forall w p, match dget (word2index (mkSpace (map (unit d1) (map (vector src) lex)) lex)) w with
      | Some c => let* ws := pick_words (mkSpace (map (unit d2) (map (vector tgt) (dkeys tgt))) (dkeys tgt)) (argsort (column c (if gc then map (corrected argsort) (map (fun t => map (fun x => - sc W src tgt x t) lex) (dkeys tgt)) else map (fun t => map (fun x => - sc W src tgt x t) lex) (dkeys tgt)))) topn in Ok (w, ws)
      | None => Err KeyError end = Ok p -> fst p = w /\ (topn <= length tgt)%nat /\ exists c, nth_error lex c = Some w /\ snd p = map (fun i => nth i (dkeys tgt) []) (firstn topn (argsort (map (badness gc W src tgt lex c w) (dkeys tgt))))).
  { intros w p Ep. destruct (in_dec eq_dec w lex) as [I|I]; [|rewrite index_missing in Ep by exact I; discriminate]. destruct (index_of (map (unit d1) (map (vector src) lex)) lex w I) as [c [Ei Ec]]. rewrite Ei, (CE c w Ec) in Ep.
    assert (LK : length (dkeys tgt) = length tgt) by apply map_length.
    destruct (le_lt_dec topn (length tgt)) as [L|L]; [|rewrite pick_short in Ep by lia; discriminate]. rewrite pick_ok in Ep by lia. cbn [rbind] in Ep. injection Ep as <-. cbn [fst snd]. eauto. }
  assert (FS : map fst l = words) by (clear - El EN; induction El as [|w p ws l Ep El IH]; [reflexivity|]; cbn; rewrite IH; f_equal; now apply EN).
  split; [reflexivity|]. split; [exact N3|]. split; [exact N4|]. split; [exact KS|]. split; [|split].
  - intros k. rewrite In_dkeys_dict_of, FS. reflexivity.
  - intros NW. destruct El as [|w p ws l Ep El]; [congruence|]. now apply (EN w p).
  - intros w I. destruct (dict_of_get l w ltac:(now rewrite FS)) as [v [E J]].
    assert (X : forall p, In p l -> exists c, nth_error lex c = Some (fst p) /\ snd p = map (fun i => nth i (dkeys tgt) []) (firstn topn (argsort (map (badness gc W src tgt lex c (fst p)) (dkeys tgt))))).
    { intros p Hp. clear - El EN Hp. induction El as [|w' p' ws l Ep El IH]; [contradiction|]. destruct Hp as [<-|Hp]; [|now apply IH]. destruct (EN _ _ Ep) as [F [_ [c [Ec Es]]]]. exists c. rewrite F. auto. }
    destruct (X _ J) as [c [Ec Es]]. cbn [fst snd] in *. exists c. split; [exact Ec|]. now rewrite E, Es.
Qed.
Lemma translate_ok : forall W src tgt words topn gc sample_num draw lex, (if gc : bool then gc_lexicon order src words sample_num draw else Ok words) = Ok lex ->
  lex <> [] -> tgt <> [] -> (forall w, In w lex -> In w (dkeys src)) -> (forall w, In w words -> In w lex) -> (topn <= length tgt)%nat -> exists res, translate d1 d2 order argsort W src tgt words topn gc sample_num draw = Ok res.
Proof.
  intros W src tgt words topn gc sample_num draw lex EL NW NT KS SUB L. unfold translate. rewrite EL. cbn [rbind]. rewrite build_ok by exact KS. cbn [rbind]. change (build tgt None) with (build tgt (Some (dkeys tgt))). rewrite build_ok by (intros w I; exact I). cbn [rbind].
  rewrite normalize_ok by (cbn; intros E; apply map_eq_nil in E; contradiction). cbn [rbind]. rewrite normalize_ok by (cbn; intros E; apply map_eq_nil, map_eq_nil in E; contradiction). cbn [rbind sp_mat sp_words]. rewrite sims_eq.
  match goal with |- context [rmapM ?f words] => destruct (rmapM_ex f (fun _ _ => True) words) as [l [E _]] end; [|rewrite E; cbn [rbind]; eauto].
  intros w I. destruct (index_of (map (unit d1) (map (vector src) lex)) lex w (SUB w I)) as [c [Ei Ec]]. rewrite Ei. pose proof (column_eq gc W src tgt lex c w Ec) as CE. destruct gc.
  all: match type of CE with _ = ?r => match goal with |- context [column ?c0 ?m] => replace (column c0 m) with r by (symmetry; exact CE) end end; rewrite pick_ok by (unfold dkeys; rewrite map_length; exact L); cbn [rbind]; eauto.
Qed.
Lemma lexicon_ok : forall src words n draw, (Z.of_nat (length words) <= Z.of_nat (length src))%Z -> (0 <= n)%Z -> (forall w, In w words -> In w (dkeys src)) ->
  exists lex, gc_lexicon order src words (Some n) draw = Ok lex /\ incl words lex /\ NoDup lex /\ (NoDup (dkeys src) -> forall w, In w lex -> In w (dkeys src)).
Proof.
  intros src words n draw L Hn KS. unfold gc_lexicon. assert (LK : length (dkeys src) = length src) by apply map_length. rewrite LK.
  destruct (Z.min n (Z.of_nat (length src) - Z.of_nat (length words)) <? 0)%Z eqn:E; [apply Z.ltb_lt in E; lia|]. eexists. split; [reflexivity|]. split; [|split].
  - intros w I. apply (order_in _ HO). apply in_or_app. now left.
  - apply HO.
  - intros ND w I. apply (proj1 (order_in _ HO _ _)) in I. apply in_app_or in I. destruct I as [I|I]; [now apply KS|]. apply in_map_iff in I. destruct I as [i [<- I]]. apply in_seq in I.
    set (others := order (filter (fun w => negb (memb w words)) (dkeys src))). assert (IN : forall x, In x others -> In x (dkeys src)) by (intros x Hx; apply (proj1 (order_in _ HO _ _)) in Hx; now apply filter_In in Hx).
    destruct (list_eq_dec eq_dec others []) as [EO|EO].
    + exfalso. assert (ALL : incl (dkeys src) words).
      { intros x Hx. destruct (in_dec eq_dec x words) as [J|J]; [exact J|]. exfalso. assert (F : In x others) by (apply (order_in _ HO); apply filter_In; split; [exact Hx|]; apply negb_true_iff; destruct (memb x words) eqn:M; [apply memb_true in M; contradiction | reflexivity]).
        rewrite EO in F. contradiction. }
      pose proof (NoDup_incl_length ND ALL) as X. rewrite LK in X. lia.
    + apply IN. apply nth_In. apply Nat.mod_upper_bound. destruct others; [congruence | discriminate].
Qed.
End Translate.
