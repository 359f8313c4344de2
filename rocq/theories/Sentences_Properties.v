(** Sentence readers: no token lost or invented, whatever the buffering; sentence lengths; what goes wrong. *)
From Coq Require Import Lia ZifyBool ZifyNat ZifyN.
From Verif Require Import Base Str SortFacts Formats_Base LineCorpora_Model LineCorpora_Proofs W2vFormat_Model W2vFormat_Proofs Sentences_Model Sentences_Spec.
Local Open Scope nat_scope.

Definition valid (s : pystr) : Prop := Forall (fun c => valid_char c = true) s.

(** ** Words of concatenations *)
Lemma words_aux_sep : forall sp a cur c b, sp c = true -> words_aux sp cur (a ++ c :: b) = words_aux sp cur (a ++ [c]) ++ words sp b.
Proof.
  intros sp. induction a as [|x a IH]; intros cur c b H; cbn [app words_aux].
  - rewrite H. destruct cur; [reflexivity|]. cbn [app]. reflexivity.
  - destruct (sp x); [destruct cur; cbn [app]; rewrite IH by exact H; reflexivity | apply IH; exact H].
Qed.
Lemma words_sep : forall sp a c b, sp c = true -> words sp (a ++ c :: b) = words sp a ++ words sp b.
Proof.
  intros sp a c b H. unfold words at 1. rewrite words_aux_sep by exact H. f_equal.
  rewrite words_aux_trail by (constructor; [exact H | constructor]). reflexivity.
Qed.
Lemma words_printable_aux : forall s cur, Forall (fun c => is_space c = false) cur -> concat (words_aux is_space cur s) = rev cur ++ printable s.
Proof.
  induction s as [|c s IH]; intros cur F; cbn [words_aux printable filter].
  - destruct cur; [reflexivity|]. cbn [concat]. rewrite !app_nil_r. reflexivity.
  - destruct (is_space c) eqn:E; cbn [negb].
    + destruct cur; [exact (IH [] F)|]. cbn [concat]. rewrite IH by constructor. reflexivity.
    + rewrite IH by (constructor; assumption). cbn [rev]. rewrite <- app_assoc. reflexivity.
Qed.
Lemma words_printable : forall s, concat (words is_space s) = printable s.
Proof. intros s. apply (words_printable_aux s []). constructor. Qed.
Lemma printable_app : forall a b, printable (a ++ b) = printable a ++ printable b.
Proof. intros. apply filter_app. Qed.
Lemma printable_spaces : forall s, Forall (fun c => is_space c = true) s -> printable s = [].
Proof. intros s H. unfold printable. induction H as [|c s E H IH]; cbn [filter]; [reflexivity|]. rewrite E. exact IH. Qed.
Lemma bspaces : forall s, Forall (fun c => is_bspace c = true) s -> Forall (fun c => is_space c = true) s.
Proof. intros s H. eapply Forall_impl; [|exact H]. intros c. apply is_bspace_space. Qed.

(** ** UTF-8 is cut only between characters by an ASCII byte *)
Lemma utf8_char_high : forall c b, In b (utf8_char c) -> (b < 128)%N -> utf8_char c = [b] /\ b = c.
Proof.
  intros c b H L. pose proof (utf8_char_low b c L H) as E. subst c. split; [|reflexivity]. unfold utf8_char. replace (b <? 128)%N with true by lia. reflexivity.
Qed.
Lemma utf8_split : forall w a x c, (x < 128)%N -> utf8 w = a ++ x :: c -> exists wa wc, w = wa ++ x :: wc /\ utf8 wa = a /\ utf8 wc = c.
Proof.
  induction w as [|y w IH]; intros a x c L E.
  - exfalso. apply (app_cons_not_nil a c x). exact E.
  - change (utf8 (y :: w)) with (utf8_char y ++ utf8 w) in E. apply app_eq_app in E. destruct E as (l & [[E1 E2]|[E1 E2]]).
    + destruct l as [|z l].
      * cbn [app] in E2. rewrite app_nil_r in E1. destruct (IH [] x c L (eq_sym E2)) as (wa & wc & A & B & C). exists (y :: wa), wc. rewrite A.
        split; [reflexivity|]. split; [|exact C]. change (utf8 (y :: wa)) with (utf8_char y ++ utf8 wa). rewrite B, app_nil_r. exact E1.
      * injection E2 as Ez Ec. subst z c. destruct (utf8_char_high y x) as [U V]; [rewrite E1; apply in_or_app; right; left; reflexivity | exact L|].
        subst y. rewrite U in E1. destruct a as [|z a]; [|destruct a; discriminate]. cbn [app] in E1. injection E1 as El. subst l.
        exists [], w. split; [reflexivity|]. split; reflexivity.
    + destruct (IH l x c L E2) as (wa & wc & A & B & C). exists (y :: wa), wc. rewrite A. split; [reflexivity|]. split; [|exact C].
      change (utf8 (y :: wa)) with (utf8_char y ++ utf8 wa). rewrite B. symmetry. exact E1.
Qed.
Lemma utf8_skip : forall s w c, Forall (fun x => x < 128)%N s -> utf8 w = s ++ c -> exists wc, w = s ++ wc /\ utf8 wc = c.
Proof.
  induction s as [|x s IH]; intros w c H E.
  - exists w. split; [reflexivity | exact E].
  - inversion H as [|? ? L H']; subst. destruct (utf8_split w [] x (s ++ c) L E) as (wa & wc & A & B & C).
    destruct wa as [|z wa]; [|exfalso; change (utf8 (z :: wa)) with (utf8_char z ++ utf8 wa) in B; apply app_eq_nil in B; destruct B as [B _]; revert B;
      unfold utf8_char; repeat (destruct (_ <? _)%N); discriminate].
    destruct (IH wc c H' C) as (wd & D & F). exists wd. subst. split; [reflexivity | reflexivity].
Qed.
Lemma bspace_low : forall s, Forall (fun c => is_bspace c = true) s -> Forall (fun x => x < 128)%N s.
Proof. intros s H. eapply Forall_impl; [|exact H]. intros c E. unfold is_bspace in E. lia. Qed.
Lemma tokens_of_utf8 : forall w, valid w -> tokens_of (utf8 w) = Some (words is_space w).
Proof. intros w V. unfold tokens_of. rewrite utf8_decode_ok by exact V. reflexivity. Qed.

(** ** The parts of [strip] and [rfind] *)
Lemma rstrip_decomp : forall sp s, exists t, s = rstrip sp s ++ t /\ Forall (fun c => sp c = true) t.
Proof.
  intros sp s. destruct (lstrip_decomp sp (rev s)) as (t & E & F). exists (rev t). split; [|apply Forall_rev; exact F].
  unfold rstrip. rewrite <- rev_app_distr, <- E, rev_involutive. reflexivity.
Qed.
Lemma rfind_space_some : forall t a r, rfind_space t = Some (a, r) -> exists b, r = chr_sp :: b /\ t = a ++ r /\ ~ In chr_sp b.
Proof.
  induction t as [|x t IH]; intros a r H; cbn [rfind_space] in H; [discriminate|].
  destruct (rfind_space t) as [[a' r']|] eqn:E.
  - injection H as Ea Er. subst. destruct (IH a' r eq_refl) as (b & A & B & C). exists b. split; [exact A|]. split; [rewrite B; reflexivity | exact C].
  - destruct (x =? chr_sp)%N eqn:Ex; [|discriminate]. injection H as Ea Er. subst. apply N.eqb_eq in Ex. subst x. exists t. split; [reflexivity|]. split; [reflexivity|].
    clear IH. induction t as [|y t IH]; [intros []|]. cbn [rfind_space] in E. destruct (rfind_space t) as [[? ?]|]; [discriminate|].
    destruct (y =? chr_sp)%N eqn:Ey; [discriminate|]. intros [H|H]; [apply N.eqb_neq in Ey; congruence | exact (IH eq_refl H)].
Qed.
Lemma rfind_space_none : forall t, rfind_space t = None -> ~ In chr_sp t.
Proof.
  induction t as [|y t IH]; intros E; [intros []|]. cbn [rfind_space] in E. destruct (rfind_space t) as [[? ?]|]; [discriminate|].
  destruct (y =? chr_sp)%N eqn:Ey; [discriminate|]. intros [H|H]; [apply N.eqb_neq in Ey; congruence | exact (IH eq_refl H)].
Qed.

(** One buffer: the text is cut at its last space and the stripped remainder is kept. *)
Lemma text8_step : forall text rem w a r, utf8 w = text ++ rem -> rfind_space text = Some (a, r) ->
  exists wa s1 wm s2 wt, w = wa ++ chr_sp :: s1 ++ wm ++ s2 ++ wt /\ utf8 wa = a /\ utf8 (wm ++ wt) = strip is_bspace r ++ rem /\
    Forall (fun c => is_bspace c = true) s1 /\ Forall (fun c => is_bspace c = true) s2 /\ (s2 <> [] -> exists t b, text = t ++ [b] /\ is_bspace b = true /\ b <> chr_sp) /\
    (forall c, In c (strip is_bspace r) -> In c text /\ c <> chr_sp).
Proof.
  intros text rem w a r E H. destruct (rfind_space_some text a r H) as (b & Er & Et & N).
  assert (Es : strip is_bspace r = strip is_bspace b) by (rewrite Er; reflexivity). rewrite Es. unfold strip.
  rewrite Et, Er, <- app_assoc in E. cbn [app] in E. destruct (utf8_split w a chr_sp (b ++ rem) ltac:(reflexivity) E) as (wa & wb & W & Ua & Ub).
  destruct (lstrip_decomp is_bspace b) as (s1 & D1 & F1). destruct (rstrip_decomp is_bspace (lstrip is_bspace b)) as (s2 & D2 & F2).
  rewrite D1, <- app_assoc in Ub. destruct (utf8_skip s1 wb _ (bspace_low s1 F1) Ub) as (wc & W2 & Uc).
  assert (X : exists wm wt, wc = wm ++ s2 ++ wt /\ utf8 (wm ++ wt) = rstrip is_bspace (lstrip is_bspace b) ++ rem).
  { destruct s2 as [|x s2].
    - exists wc, []. cbn [app]. rewrite app_nil_r. split; [reflexivity|]. rewrite app_nil_r in D2. rewrite <- D2. exact Uc.
    - rewrite D2, <- app_assoc in Uc. cbn [app] in Uc. inversion F2 as [|? ? Fx F2']; subst.
      pose proof (bspace_low [x] ltac:(constructor; [exact Fx | constructor])) as Lx. inversion Lx as [|? ? Lx' _]; subst.
      destruct (utf8_split wc _ x (s2 ++ rem) Lx' Uc) as (wm & wd & W3 & Um & Ud). destruct (utf8_skip s2 wd rem (bspace_low s2 F2') Ud) as (wt & W4 & Ut).
      exists wm, wt. split; [rewrite W3, W4; reflexivity|]. rewrite utf8_app, Um, Ut. reflexivity. }
  destruct X as (wm & wt & W3 & Um). exists wa, s1, wm, s2, wt. split; [rewrite W, W2, W3; reflexivity|]. split; [exact Ua|]. split; [exact Um|].
  split; [exact F1|]. split; [exact F2|]. split.
  - intros N2. destruct (exists_last N2) as (t & z & Ez). subst s2. exists (a ++ chr_sp :: s1 ++ rstrip is_bspace (lstrip is_bspace b) ++ t), z.
    assert (Eb : b = s1 ++ rstrip is_bspace (lstrip is_bspace b) ++ t ++ [z]) by (rewrite <- D2; exact D1).
    split; [rewrite Et, Er; rewrite Eb at 1; repeat (rewrite <- app_assoc; cbn [app]); reflexivity|].
    apply Forall_app in F2. destruct F2 as [_ F2]. inversion F2; subst. split; [assumption|]. intros Hz. apply N. rewrite Eb. apply in_or_app; right. apply in_or_app; right. apply in_or_app; right. left. exact Hz.
  - intros c Hc. assert (In c b). { rewrite D1. apply in_or_app; right. rewrite D2. apply in_or_app; left. exact Hc. }
    split; [rewrite Et, Er; apply in_or_app; right; right; assumption|]. intros Ec. subst c. contradiction.
Qed.

Lemma drain_ok : forall m fuel s ys s', 0 < m -> length s <= fuel -> drain fuel m s = (ys, s') ->
  s = concat ys ++ s' /\ Forall (fun y => length y = m) ys /\ length s' < m.
Proof.
  intros m. induction fuel as [|fuel IH]; intros s ys s' M L H; cbn [drain] in H.
  - injection H as E1 E2. subst. split; [reflexivity|]. split; [constructor | lia].
  - destruct (m <=? length s) eqn:E.
    + destruct (drain fuel m (skipn m s)) as [ys1 s1] eqn:D. injection H as E1 E2. subst ys s'.
      destruct (IH (skipn m s) ys1 s1 M) as (A & B & C); [rewrite skipn_length; lia | exact D|]. cbn [concat]. rewrite <- app_assoc, <- A, firstn_skipn.
      split; [reflexivity|]. split; [constructor; [rewrite firstn_length; lia | exact B] | exact C].
    + injection H as E1 E2. subst. split; [reflexivity|]. split; [constructor | lia].
Qed.

Lemma valid_app : forall a b, valid (a ++ b) -> valid a /\ valid b.
Proof. intros. apply Forall_app. assumption. Qed.

(** The loop, with the words of the text to come in view. *)
Lemma text8_loop_tokens : forall m chunks sentence rest w, 0 < m -> Forall ends_well chunks -> valid w -> utf8 w = rest ++ concat chunks ->
  (chunks <> [] -> Forall (fun c => c <> []) chunks) ->
  exists ys, text8_loop m sentence rest chunks = (ys, Ended) /\ concat ys = sentence ++ words is_space w.
Proof.
  intros m. induction chunks as [|c chunks IH]; intros sentence rest w M W V E NE.
  - cbn [text8_loop]. cbn [concat] in E. rewrite app_nil_r in E. rewrite <- E, tokens_of_utf8 by exact V.
    destruct (sentence ++ words is_space w) as [|x l] eqn:S; eexists; (split; [reflexivity|]); [reflexivity | cbn [concat]; apply app_nil_r].
  - cbn [text8_loop]. cbn [concat] in E. rewrite app_assoc in E. inversion W as [|? ? Wc W']; subst. pose proof (NE ltac:(discriminate)) as NE'. inversion NE' as [|? ? Nc NE'']; subst.
    destruct (rfind_space (rest ++ c)) as [[a r]|] eqn:R.
    + destruct (text8_step _ _ w a r E R) as (wa & s1 & wm & s2 & wt & Ew & Ua & Um & F1 & F2 & Wl & _).
      assert (Z2 : s2 = []).
      { destruct s2 as [|x s2]; [reflexivity|]. exfalso. destruct (Wl ltac:(discriminate)) as (t & b & Et & Hb & Hn). destruct (exists_last Nc) as (c' & b' & Ec). subst c.
        rewrite app_assoc in Et. apply app_inj_tail in Et. destruct Et as [_ Eb]. subst b'. apply Hn. exact (Wc c' b eq_refl Hb). }
      subst s2. rewrite Ew in V. destruct (valid_app _ _ V) as [Va Vb]. apply (Forall_inv_tail) in Vb. destruct (valid_app _ _ Vb) as [_ Vm]. cbn [app] in Vm.
      rewrite <- Ua, tokens_of_utf8 by exact Va. cbn [option_map]. destruct m as [|m]; [lia|].
      destruct (drain (length (sentence ++ words is_space wa)) (S m) (sentence ++ words is_space wa)) as [ys s] eqn:D.
      destruct (drain_ok _ _ _ _ _ M (Nat.le_refl _) D) as (A & _ & _).
      destruct (IH s (strip is_bspace r) (wm ++ wt) M W' Vm Um ltac:(intros; exact NE'')) as (zs & Hz & Cz). rewrite Hz. eexists. split; [reflexivity|].
      rewrite concat_app, Cz, app_assoc, <- A, <- app_assoc, Ew. f_equal. rewrite words_sep by reflexivity. f_equal. cbn [app]. rewrite (words_spaces is_space s1) by (apply bspaces; exact F1). reflexivity.
    + destruct m as [|m]; [lia|]. rewrite app_nil_r. destruct (drain (length sentence) (S m) sentence) as [ys s] eqn:D.
      destruct (drain_ok _ _ _ _ _ M (Nat.le_refl _) D) as (A & _ & _). destruct (IH s (rest ++ c) w M W' V E ltac:(intros; exact NE'')) as (zs & Hz & Cz).
      rewrite Hz. eexists. split; [reflexivity|]. rewrite concat_app, Cz, app_assoc, <- A. reflexivity.
Qed.

(** Every token of the file is delivered, in order and whole, however the file is buffered, provided that no buffer ends
    in whitespace other than a space. *)
Theorem text8_tokens : forall m chunks s, 0 < m -> valid s -> concat chunks = utf8 s -> Forall (fun c => c <> []) chunks -> Forall ends_well chunks ->
  exists ys, text8 m chunks = (ys, Ended) /\ concat ys = words is_space s.
Proof. intros m chunks s M V E NE W. apply (text8_loop_tokens m chunks [] [] s M W V (eq_sym E)). intros; exact NE. Qed.
Print Assumptions text8_tokens.

Lemma text8_loop_chars : forall m chunks sentence rest w, 0 < m -> valid w -> utf8 w = rest ++ concat chunks ->
  exists ys, text8_loop m sentence rest chunks = (ys, Ended) /\ concat (concat ys) = concat sentence ++ printable w.
Proof.
  intros m. induction chunks as [|c chunks IH]; intros sentence rest w M V E.
  - cbn [text8_loop]. cbn [concat] in E. rewrite app_nil_r in E. rewrite <- E, tokens_of_utf8 by exact V. rewrite <- words_printable, <- concat_app. change (@app (list N)) with (@app pystr).
    destruct (sentence ++ words is_space w) as [|x l] eqn:S; eexists; (split; [reflexivity|]); [reflexivity | cbn [concat]; rewrite app_nil_r; reflexivity].
  - cbn [text8_loop]. cbn [concat] in E. rewrite app_assoc in E. destruct m as [|m]; [lia|].
    destruct (rfind_space (rest ++ c)) as [[a r]|] eqn:R.
    + destruct (text8_step _ _ w a r E R) as (wa & s1 & wm & s2 & wt & Ew & Ua & Um & F1 & F2 & Wl & _).
      rewrite Ew in V. destruct (valid_app _ _ V) as [Va Vb]. apply (Forall_inv_tail) in Vb. destruct (valid_app _ _ Vb) as [_ Vm].
      destruct (valid_app _ _ Vm) as [Vm1 Vm2]. destruct (valid_app _ _ Vm2) as [_ Vt].
      rewrite <- Ua, tokens_of_utf8 by exact Va. cbn [option_map].
      destruct (drain (length (sentence ++ words is_space wa)) (S m) (sentence ++ words is_space wa)) as [ys s] eqn:D.
      destruct (drain_ok _ _ _ _ _ M (Nat.le_refl _) D) as (A & _ & _).
      destruct (IH s (strip is_bspace r) (wm ++ wt) M) as (zs & Hz & Cz); [apply Forall_app; split; assumption | exact Um|]. rewrite Hz. eexists. split; [reflexivity|].
      pose proof (f_equal (@concat N) A) as X. rewrite !concat_app in X. rewrite !concat_app, Cz, app_assoc, <- X, <- app_assoc, words_printable, Ew. f_equal.
      change (chr_sp :: s1 ++ wm ++ s2 ++ wt) with ([chr_sp] ++ s1 ++ wm ++ s2 ++ wt). rewrite !printable_app.
      rewrite (printable_spaces [chr_sp]) by (constructor; [reflexivity | constructor]). rewrite (printable_spaces s1), (printable_spaces s2) by (apply bspaces; assumption). reflexivity.
    + rewrite app_nil_r. destruct (drain (length sentence) (S m) sentence) as [ys s] eqn:D.
      destruct (drain_ok _ _ _ _ _ M (Nat.le_refl _) D) as (A & _ & _). destruct (IH s (rest ++ c) w M V E) as (zs & Hz & Cz).
      rewrite Hz. eexists. split; [reflexivity|]. pose proof (f_equal (@concat N) A) as X. rewrite !concat_app in X. rewrite !concat_app, Cz, app_assoc, <- X. reflexivity.
Qed.
(** In any case no printable character is lost, doubled or moved: only the borders between words can go wrong. *)
Theorem text8_characters : forall m chunks s, 0 < m -> valid s -> concat chunks = utf8 s ->
  exists ys, text8 m chunks = (ys, Ended) /\ concat (concat ys) = printable s.
Proof. intros m chunks s M V E. apply (text8_loop_chars m chunks [] [] s M V (eq_sym E)). Qed.
Print Assumptions text8_characters.

(** ** Lengths of the sentences *)
Definition full (m : nat) (ps : list (list pystr)) : Prop := forall a p b, ps = a ++ p :: b -> p <> [] /\ length p <= m /\ (b <> [] -> length p = m).
Lemma full_nil : forall m, full m [].
Proof. intros m a p b E. exfalso. exact (app_cons_not_nil a b p E). Qed.
Lemma full_cons : forall m y zs, 0 < m -> length y = m -> full m zs -> full m (y :: zs).
Proof.
  intros m y zs M L F a p b E. destruct a as [|z a]; injection E as E1 E2.
  - subst. split; [intros X; subst p; cbn [length] in M; lia|]. split; [lia | intros; reflexivity].
  - subst. exact (F a p b eq_refl).
Qed.
Lemma full_one : forall m y, y <> [] -> length y <= m -> full m [y].
Proof.
  intros m y N L a p b E. destruct a as [|z a]; injection E as E1 E2.
  - subst. split; [exact N|]. split; [exact L | congruence].
  - exfalso. exact (app_cons_not_nil a b p E2).
Qed.
Lemma full_app : forall m ys zs, 0 < m -> Forall (fun y => length y = m) ys -> full m zs -> full m (ys ++ zs).
Proof. intros m ys zs M F H. induction F as [|y ys E F IH]; [exact H|]. apply full_cons; assumption. Qed.

Lemma words_one : forall w, Forall (fun c => is_space c = false) w -> length (words is_space w) <= 1.
Proof.
  intros [|c w] F; [apply Nat.le_0_l|]. rewrite words_word_end; [apply Nat.le_refl | exact F | discriminate].
Qed.
Lemma utf8_in : forall c w, In c w -> (c < 128)%N -> In c (utf8 w).
Proof. intros c w H L. apply in_flat_map. exists c. split; [exact H|]. unfold utf8_char. replace (c <? 128)%N with true by lia. left; reflexivity. Qed.

Lemma text8_loop_lengths : forall m chunks sentence rest w, length sentence < m -> ~ In chr_sp rest -> valid w ->
  utf8 w = rest ++ concat chunks -> (forall c, In c w -> is_space c = true -> c = chr_sp) ->
  full m (fst (text8_loop m sentence rest chunks)).
Proof.
  intros m. induction chunks as [|c chunks IH]; intros sentence rest w M NS V E O.
  - cbn [text8_loop]. cbn [concat] in E. rewrite app_nil_r in E. rewrite <- E, tokens_of_utf8 by exact V.
    assert (L : length (words is_space w) <= 1).
    { apply words_one. apply Forall_forall. intros c Hc. destruct (is_space c) eqn:Ec; [|reflexivity]. exfalso. pose proof (O c Hc Ec). subst c.
      apply NS. rewrite <- E. apply utf8_in; [exact Hc | reflexivity]. }
    assert (L2 : length (sentence ++ words is_space w) <= m) by (rewrite app_length; lia).
    destruct (sentence ++ words is_space w) as [|x l]; cbn [fst]; [apply full_nil | apply full_one; [discriminate | exact L2]].
  - cbn [text8_loop]. cbn [concat] in E. rewrite app_assoc in E. destruct m as [|m]; [lia|].
    destruct (rfind_space (rest ++ c)) as [[a r]|] eqn:R.
    + destruct (text8_step _ _ w a r E R) as (wa & s1 & wm & s2 & wt & Ew & Ua & Um & F1 & F2 & Wl & NI).
      assert (V' : valid (wm ++ wt)).
      { rewrite Ew in V. destruct (valid_app _ _ V) as [Va Vb]. apply (Forall_inv_tail) in Vb. destruct (valid_app _ _ Vb) as [_ Vm].
        destruct (valid_app _ _ Vm) as [Vm1 Vm2]. destruct (valid_app _ _ Vm2) as [_ Vt]. apply Forall_app. split; assumption. }
      assert (Va : valid wa) by (rewrite Ew in V; apply valid_app in V; tauto).
      rewrite <- Ua, tokens_of_utf8 by exact Va. cbn [option_map].
      destruct (drain (length (sentence ++ words is_space wa)) (S m) (sentence ++ words is_space wa)) as [ys s] eqn:D.
      destruct (drain_ok _ _ _ _ _ (Nat.lt_0_succ m) (Nat.le_refl _) D) as (A & B & C).
      pose proof (IH s (strip is_bspace r) (wm ++ wt) C) as X. destruct (text8_loop (S m) s (strip is_bspace r) chunks) as [zs e]. cbn [fst] in *.
      apply full_app; [lia | exact B|]. apply X; [intros H; destruct (NI _ H); congruence | exact V' | exact Um|]. intros x Hx. apply O. rewrite Ew.
      apply in_app_or in Hx. apply in_or_app; right; right. apply in_or_app; right. apply in_or_app. destruct Hx as [Hx|Hx]; [left; exact Hx | right; apply in_or_app; right; exact Hx].
    + rewrite app_nil_r. destruct (drain (length sentence) (S m) sentence) as [ys s] eqn:D.
      destruct (drain_ok _ _ _ _ _ (Nat.lt_0_succ m) (Nat.le_refl _) D) as (A & B & C).
      pose proof (IH s (rest ++ c) w C (rfind_space_none _ R) V E O) as X. destruct (text8_loop (S m) s (rest ++ c) chunks) as [zs e]. cbn [fst] in *.
      apply full_app; [lia | exact B | exact X].
Qed.
(** When spaces are the only whitespace, the sentences are the words cut into pieces of the given length, for every buffering. *)
Theorem text8_pieces : forall m chunks s, 0 < m -> valid s -> concat chunks = utf8 s -> Forall (fun c => c <> []) chunks ->
  (forall c, In c s -> is_space c = true -> c = chr_sp) ->
  exists ys, text8 m chunks = (ys, Ended) /\ pieces m (words is_space s) ys.
Proof.
  intros m chunks s M V E NE O. destruct (text8_tokens m chunks s M V E NE) as (ys & H & C).
  - apply Forall_forall. intros c Hc t b Et Hb. subst c.
    assert (In b s).
    { apply utf8_low; [unfold is_bspace in Hb; lia|]. rewrite <- E. apply in_concat. exists (t ++ [b]). split; [exact Hc | apply in_or_app; right; left; reflexivity]. }
    apply O; [assumption | apply is_bspace_space; exact Hb].
  - exists ys. split; [exact H|]. split; [exact C|]. pose proof (text8_loop_lengths m chunks [] [] s) as X. change (text8_loop m [] [] chunks) with (text8 m chunks) in X.
    rewrite H in X. apply X; [exact M | intros [] | exact V | symmetry; exact E | exact O].
Qed.
Print Assumptions text8_pieces.

(** ** One sentence per line *)
Lemma slices_ok : forall m fuel ws, 0 < m -> length ws <= fuel -> pieces m ws (slices fuel m ws).
Proof.
  intros m. induction fuel as [|fuel IH]; intros ws M L.
  - destruct ws; [|cbn [length] in L; lia]. split; [reflexivity | apply full_nil].
  - destruct ws as [|w ws]; [split; [reflexivity | apply full_nil]|].
    change (slices (S fuel) m (w :: ws)) with (firstn m (w :: ws) :: slices fuel m (skipn m (w :: ws))). remember (w :: ws) as l eqn:El.
    destruct (IH (skipn m l) M) as [A B]; [rewrite skipn_length; lia|]. split.
    + cbn [concat]. rewrite A. apply firstn_skipn.
    + assert (Ln : 0 < length l) by (subst l; cbn [length]; lia). destruct (Nat.le_gt_cases m (length l)) as [G|G].
      * apply full_cons; [exact M | rewrite firstn_length; lia | exact B].
      * rewrite (skipn_all2 l) in * by lia. destruct fuel; cbn [slices] in *; (apply full_one; [intros X; apply (f_equal (@length _)) in X; rewrite firstn_length in X; cbn [length] in X; lia | rewrite firstn_length; lia]).
Qed.
Lemma file_lines_utf8_aux : forall s cur, file_lines_aux (rev (utf8 (rev cur))) (utf8 s) = map utf8 (file_lines_aux cur s).
Proof.
  induction s as [|c s IH]; intros cur.
  - cbn [utf8 flat_map file_lines_aux]. destruct cur as [|x cur]; [reflexivity|]. cbn [map]. 
    destruct (rev (utf8 (rev (x :: cur)))) as [|z l] eqn:E; [|rewrite <- E, rev_involutive; reflexivity].
    exfalso. apply (f_equal (@rev N)) in E. rewrite rev_involutive in E. cbn [rev] in E. rewrite utf8_app in E. apply app_eq_nil in E. destruct E as [_ E]. revert E.
    cbn [utf8 flat_map]. rewrite app_nil_r. unfold utf8_char; repeat (destruct (_ <? _)%N); discriminate.
  - change (utf8 (c :: s)) with (utf8_char c ++ utf8 s). cbn [file_lines_aux]. destruct (eq_dec c chr_nl) as [Ec|Nc].
    + subst c. change (utf8_char chr_nl) with [chr_nl]. cbn [app file_lines_aux]. destruct (eq_dec chr_nl chr_nl) as [_|X]; [|congruence].
      cbn [map]. f_equal; [|exact (IH [])]. cbn [rev]. rewrite rev_involutive, utf8_app. reflexivity.
    + rewrite file_lines_aux_nonl.
      * rewrite <- (IH (c :: cur)). f_equal. cbn [rev]. rewrite utf8_app, rev_app_distr. f_equal. cbn [utf8 flat_map]. rewrite app_nil_r. reflexivity.
      * intros H. apply Nc. symmetry. apply utf8_char_low in H; [exact H | reflexivity].
Qed.
Lemma file_lines_utf8 : forall s, file_lines (utf8 s) = map utf8 (file_lines s).
Proof. intros s. exact (file_lines_utf8_aux s []). Qed.
Lemma file_lines_aux_concat : forall s cur, concat (file_lines_aux cur s) = rev cur ++ s.
Proof.
  induction s as [|c s IH]; intros cur; cbn [file_lines_aux].
  - destruct cur; [reflexivity|]. cbn [concat]. rewrite !app_nil_r. reflexivity.
  - destruct (eq_dec c chr_nl); [cbn [concat]; rewrite IH; cbn [rev app]; rewrite <- app_assoc; reflexivity|].
    rewrite IH. cbn [rev]. rewrite <- app_assoc. reflexivity.
Qed.
Lemma file_lines_all : forall s, concat (file_lines s) = s.
Proof. intros s. exact (file_lines_aux_concat s []). Qed.
Lemma file_lines_words_aux : forall s cur, concat (map (words is_space) (file_lines_aux cur s)) = words is_space (rev cur ++ s).
Proof.
  induction s as [|c s IH]; intros cur; cbn [file_lines_aux].
  - destruct cur; [reflexivity|]. cbn [map concat]. rewrite !app_nil_r. reflexivity.
  - destruct (eq_dec c chr_nl) as [E|N].
    + subst c. cbn [map concat]. rewrite (IH []). cbn [rev app]. rewrite !words_sep by reflexivity. change (words is_space []) with (@nil pystr). rewrite app_nil_r. reflexivity.
    + rewrite IH. cbn [rev]. rewrite <- app_assoc. reflexivity.
Qed.
Lemma valid_lines : forall s, valid s -> Forall valid (file_lines s).
Proof.
  intros s V. apply Forall_forall. intros l Hl. apply Forall_forall. intros c Hc. unfold valid in V. rewrite Forall_forall in V. apply V. rewrite <- (file_lines_all s). apply in_concat. exists l. split; assumption.
Qed.
Lemma islice_map : forall {A B} (f : A -> B) limit l, islice limit (map f l) = map f (islice limit l).
Proof. intros A B f [n|] l; [apply firstn_map | reflexivity]. Qed.
Lemma islice_in : forall {A} limit (l : list A) x, In x (islice limit l) -> In x l.
Proof. intros A [n|] l x H; [eapply In_firstn; exact H | exact H]. Qed.

Lemma line_loop_ok : forall m ls, 0 < m -> Forall valid ls ->
  exists pss, line_loop m (map utf8 ls) = (concat pss, Ended) /\ Forall2 (fun l ps => pieces m (words is_space l) ps) ls pss.
Proof.
  intros m ls M F. induction F as [|l ls V F IH]; [exists []; split; [reflexivity | constructor]|].
  destruct IH as (pss & H & P). cbn [map line_loop]. rewrite tokens_of_utf8 by exact V. rewrite H.
  exists (slices (length (words is_space l)) m (words is_space l) :: pss). split; [destruct m; [lia | reflexivity]|]. constructor; [apply slices_ok; [exact M | apply Nat.le_refl] | exact P].
Qed.
(** Each line is delivered as consecutive pieces of at most [m] tokens, all full but the last; [limit] counts lines. *)
Theorem line_sentence_ok : forall m limit s, 0 < m -> valid s ->
  exists pss, line_sentence m limit (utf8 s) = (concat pss, Ended) /\
    Forall2 (fun l ps => pieces m (words is_space l) ps) (islice limit (file_lines s)) pss.
Proof.
  intros m limit s M V. unfold line_sentence. rewrite file_lines_utf8, islice_map. apply line_loop_ok; [exact M|].
  apply Forall_forall. intros l Hl. apply islice_in in Hl. pose proof (valid_lines s V) as F. rewrite Forall_forall in F. apply F. exact Hl.
Qed.
Print Assumptions line_sentence_ok.
Lemma pieces_concat : forall m ls pss, Forall2 (fun l ps => pieces m (words is_space l) ps) ls pss -> concat (concat pss) = concat (map (words is_space) ls).
Proof. intros m ls pss H. induction H as [|l ps ls pss [A _] H IH]; [reflexivity|]. cbn [concat map]. rewrite concat_app, A, IH. reflexivity. Qed.
(** Without a limit the tokens are those of the whole file. *)
Theorem line_sentence_tokens : forall m s, 0 < m -> valid s -> exists ys, line_sentence m None (utf8 s) = (ys, Ended) /\ concat ys = words is_space s.
Proof.
  intros m s M V. destruct (line_sentence_ok m None s M V) as (pss & H & P). exists (concat pss). split; [exact H|].
  rewrite (pieces_concat _ _ _ P). exact (file_lines_words_aux s []).
Qed.
Print Assumptions line_sentence_tokens.
(** Decoding is strict: a line is read only if it is the encoding of valid characters. *)
Theorem decode_strict : forall l w, utf8_decode l = Some w <-> valid w /\ utf8 w = l.
Proof.
  intros l w. split.
  - intros H. unfold utf8_decode in H. destruct (forallb valid_char (utf8_read l)) eqn:F; [|discriminate]. cbn [andb] in H.
    destruct (eqb (utf8 (utf8_read l)) l) eqn:E; [|discriminate]. injection H as <-. rewrite eqb_true in E. split; [|exact E].
    apply Forall_forall. rewrite forallb_forall in F. exact F.
  - intros [V <-]. apply utf8_decode_ok. exact V.
Qed.
Print Assumptions decode_strict.
Example decode_strict_ex : utf8_decode [195; 169]%N = Some [233%N] /\ utf8_decode [237; 160; 128]%N = None /\ utf8_decode [192; 175]%N = None.
Proof. vm_compute. auto. Qed.
(** A line that is not UTF-8 stops the reader with an error, after the sentences of the lines before it. *)
Theorem line_sentence_bad : forall m limit file ls l rest, 0 < m -> islice limit (file_lines file) = map utf8 ls ++ l :: rest -> Forall valid ls ->
  utf8_decode l = None ->
  exists pss, line_sentence m limit file = (concat pss, Raised UnicodeErr) /\ Forall2 (fun l ps => pieces m (words is_space l) ps) ls pss.
Proof.
  intros m limit file ls l rest M E F B. unfold line_sentence. rewrite E. clear E. induction F as [|x ls V F IH].
  - exists []. split; [|constructor]. cbn [map app line_loop]. unfold tokens_of. rewrite B. reflexivity.
  - destruct IH as (pss & H & P). cbn [map app line_loop]. rewrite tokens_of_utf8 by exact V. rewrite H.
    exists (slices (length (words is_space x)) m (words is_space x) :: pss). split; [destruct m; [lia | reflexivity]|]. constructor; [apply slices_ok; [exact M | apply Nat.le_refl] | exact P].
Qed.
Print Assumptions line_sentence_bad.

(** ** Saving sentences, and reading them back *)
Lemma pieces_short : forall m ws ps, ws <> [] -> length ws <= m -> pieces m ws ps -> ps = [ws].
Proof.
  intros m ws ps N L [A B]. destruct ps as [|p ps]; [exfalso; apply N; symmetry; exact A|].
  destruct ps as [|q ps]; [cbn [concat] in A; rewrite app_nil_r in A; subst; reflexivity|]. exfalso.
  destruct (B [] p (q :: ps) eq_refl) as (_ & _ & X). specialize (X ltac:(discriminate)). destruct (B [p] q ps eq_refl) as (Y & _ & _).
  cbn [concat] in A. apply (f_equal (@length pystr)) in A. rewrite !app_length in A. destruct q; [congruence|]. cbn [length] in A. lia.
Qed.
Lemma token_valid_join : forall ws, Forall (plain_token valid_char) ws -> valid (join [chr_sp] ws) /\ ~ In chr_nl (join [chr_sp] ws).
Proof.
  intros ws F. assert (T : Forall token ws) by (eapply Forall_impl; [|exact F]; intros w (A & B & _); split; assumption).
  split; [|apply join_no_nl; exact T]. clear T. induction F as [|w ws (_ & _ & V) F IH]; [constructor|]. cbn [join]. destruct ws; [exact V|].
  apply Forall_app; split; [exact V|]. apply Forall_app; split; [constructor; [reflexivity | constructor] | exact IH].
Qed.
(** Sentences of plain tokens come back cut into pieces, so unchanged if they are neither empty nor longer than [m]. *)
Theorem saved_sentences_ok : forall m corpus, 0 < m -> Forall (Forall (plain_token valid_char)) corpus ->
  exists pss, line_sentence m None (save_as_line_sentence corpus) = (concat pss, Ended) /\ Forall2 (pieces m) corpus pss.
Proof.
  intros m corpus M F. set (texts := map (join [chr_sp]) corpus).
  assert (E : save_as_line_sentence corpus = utf8 (concat (map (fun w => w ++ [chr_nl]) texts))).
  { unfold save_as_line_sentence, texts. clear F. induction corpus as [|s corpus IH]; [reflexivity|]. cbn [flat_map map concat]. rewrite IH, (utf8_app (join [chr_sp] s ++ [chr_nl])). reflexivity. }
  assert (NL : Forall (fun w => ~ In chr_nl w) texts).
  { apply Forall_forall. intros t Ht. apply in_map_iff in Ht. destruct Ht as (s & Es & Hs). subst t. rewrite Forall_forall in F. apply token_valid_join. exact (F s Hs). }
  rewrite E. destruct (line_sentence_ok m None (concat (map (fun w => w ++ [chr_nl]) texts)) M) as (pss & H & P).
  { apply Forall_forall. intros c Hc. apply in_concat in Hc. destruct Hc as (l & Hl & Hc). apply in_map_iff in Hl. destruct Hl as (t & Et & Ht). subst l.
    apply in_map_iff in Ht. destruct Ht as (s & Es & Hs). subst t. apply in_app_or in Hc. rewrite Forall_forall in F. destruct Hc as [Hc|[Hc|[]]]; [|subst c; reflexivity].
    destruct (token_valid_join s (F s Hs)) as [V _]. unfold valid in V. rewrite Forall_forall in V. exact (V c Hc). }
  exists pss. split; [exact H|]. cbn [islice] in P. rewrite (file_lines_concat texts NL) in P. unfold texts in P. rewrite map_map in P.
  clear H E NL texts. remember (map _ corpus) as ls eqn:El. revert corpus F El. induction P as [|l ps ls pss Hp P IH]; intros corpus F El.
  - destruct corpus; [constructor | discriminate].
  - destruct corpus as [|s corpus]; [discriminate|]. injection El as E1 E2. inversion F as [|? ? Fs F']; subst. constructor; [|apply IH; [exact F' | reflexivity]].
    rewrite words_join in Hp; [exact Hp | reflexivity | | constructor; [reflexivity | constructor]]. eapply Forall_impl; [|exact Fs]. intros w (A & B & _). split; assumption.
Qed.
Print Assumptions saved_sentences_ok.
Theorem saved_sentences_roundtrip : forall m corpus, Forall (Forall (plain_token valid_char)) corpus -> Forall (fun s => s <> [] /\ length s <= m) corpus ->
  line_sentence m None (save_as_line_sentence corpus) = (corpus, Ended).
Proof.
  intros m corpus F L. destruct (Nat.eq_dec m 0) as [M|M].
  - destruct corpus as [|s corpus]; [reflexivity|]. inversion L as [|? ? [A B] _]; subst. destruct s; [congruence | cbn [length] in B; lia].
  - destruct (saved_sentences_ok m corpus ltac:(lia) F) as (pss & H & P). rewrite H. f_equal. clear H F. induction P as [|s ps corpus pss Hp P IH]; [reflexivity|].
    inversion L as [|? ? [A B] L']; subst. cbn [concat]. rewrite (pieces_short m s ps A B Hp), IH by exact L'. reflexivity.
Qed.
Print Assumptions saved_sentences_roundtrip.
(** Empty sentences disappear. *)
Theorem saved_empty_refuted : exists corpus, Forall (Forall (plain_token valid_char)) corpus /\ line_sentence 10 None (save_as_line_sentence corpus) <> (corpus, Ended).
Proof. exists [[]; [str "a"]]. split; [repeat constructor; discriminate | vm_compute; discriminate]. Qed.

(** ** Directories *)
Lemma sorted_unique : forall {A} (es es' : list (pystr * A)), NoDup (map fst es) -> Permutation es es' ->
  StronglySorted (fun a b => str_leb (fst a) (fst b) = true) es -> StronglySorted (fun a b => str_leb (fst a) (fst b) = true) es' -> es = es'.
Proof.
  intros A. induction es as [|x es IH]; intros es' ND P S S'; [apply Permutation_nil in P; symmetry; exact P|].
  destruct es' as [|y es']; [apply Permutation_sym, Permutation_nil in P; discriminate|].
  inversion S as [|? ? S1 F1]; inversion S' as [|? ? S2 F2]; subst. rewrite Forall_forall in F1, F2.
  assert (E : x = y).
  { assert (Hx : In x (y :: es')) by (eapply Permutation_in; [exact P | left; reflexivity]). assert (Hy : In y (x :: es)) by (eapply Permutation_in; [apply Permutation_sym; exact P | left; reflexivity]).
    destruct Hx as [Hx|Hx]; [symmetry; exact Hx|]. destruct Hy as [Hy|Hy]; [exact Hy|]. exfalso. cbn [map] in ND. inversion ND as [|? ? NI _]; subst. apply NI.
    rewrite (str_leb_antisym (fst x) (fst y)); [apply in_map; exact Hy | apply F1; exact Hy | apply F2; exact Hx]. }
  subst y. f_equal. apply IH; [cbn [map] in ND; inversion ND; assumption | eapply Permutation_cons_inv; exact P | exact S1 | exact S2].
Qed.
Lemma sort_names_sorted : forall {A} (es : list (pystr * A)), StronglySorted (fun a b => str_leb (fst a) (fst b) = true) (sort_names es).
Proof.
  intros A es. apply isort_StronglySorted; [intros x y; apply str_leb_total | intros x y z; apply str_leb_trans].
Qed.
(** The order in which the operating system lists a directory does not matter. *)
Theorem path_order : forall m limit dir dir', NoDup (map fst dir) -> Permutation dir dir' -> path_line_sentences m limit dir = path_line_sentences m limit dir'.
Proof.
  intros m limit dir dir' ND P. unfold path_line_sentences. f_equal. apply sorted_unique; [|  | apply sort_names_sorted | apply sort_names_sorted].
  - eapply Permutation_NoDup; [|exact ND]. apply Permutation_map. apply Permutation_isort.
  - eapply perm_trans; [apply Permutation_sym, Permutation_isort|]. eapply perm_trans; [exact P | apply Permutation_isort].
Qed.
Print Assumptions path_order.
(** All files of text are read, one after the other in the order of their names. *)
Theorem path_sentences_ok : forall m limit (files : list (pystr * pystr)), 0 < m -> Forall (fun f => valid (snd f)) files ->
  StronglySorted (fun a b => str_leb (fst a) (fst b) = true) files ->
  exists psss, path_line_sentences m limit (map (fun f => (fst f, Some (utf8 (snd f)))) files) = (concat (map (@concat _) psss), Ended) /\
    Forall2 (fun f pss => Forall2 (fun l ps => pieces m (words is_space l) ps) (islice limit (file_lines (snd f))) pss) files psss.
Proof.
  intros m limit files M V S. unfold path_line_sentences.
  assert (E : forall A B (g : A -> B) (fs : list (pystr * A)), StronglySorted (fun a b => str_leb (fst a) (fst b) = true) fs -> sort_names (map (fun f => (fst f, g (snd f))) fs) = map (fun f => (fst f, g (snd f))) fs).
  { intros A B g fs H. induction H as [|x fs S' IH F]; [reflexivity|]. cbn [map]. unfold sort_names in *. cbn [isort]. rewrite IH. destruct fs as [|y fs]; [reflexivity|]. cbn [map insert fst].
    inversion F as [|? ? Fy _]; subst. rewrite Fy. reflexivity. }
  rewrite (E _ _ (fun s => Some (utf8 s))) by exact S. clear E S. induction V as [|f files Vf V IH]; [exists []; split; [reflexivity | constructor]|].
  destruct IH as (psss & H & P). destruct (line_sentence_ok m limit (snd f) M Vf) as (pss & H1 & P1). cbn [map path_loop]. rewrite H1, H.
  exists (pss :: psss). split; [reflexivity | constructor; assumption].
Qed.
Print Assumptions path_sentences_ok.

(** ** What goes wrong *)
(** A newline at the end of a buffer makes two words into one. *)
Theorem text8_merge_refuted : exists chunks s, concat chunks = utf8 s /\ valid s /\ Forall (fun c => c <> []) chunks /\
  words is_space s = [str "a"; str "b"; str "c"] /\ text8 10 chunks = ([[str "a"; str "bc"]], Ended).
Proof.
  exists [[97; 32; 98; 10]%N; [99]%N], [97; 32; 98; 10; 99]%N. split; [reflexivity|]. split; [repeat constructor|]. split; [repeat constructor; discriminate|]. split; vm_compute; reflexivity.
Qed.
(** Without spaces (one word per line) everything is one sentence, however long; training keeps only its first words. *)
Theorem text8_long_refuted : exists chunks s ys, concat chunks = utf8 s /\ valid s /\ text8 2 chunks = (ys, Ended) /\ exists y, In y ys /\ length y = 5.
Proof.
  exists [[97; 10; 97; 10; 97; 10]%N; [97; 10; 97; 10]%N], [97; 10; 97; 10; 97; 10; 97; 10; 97; 10]%N. eexists. split; [reflexivity|]. split; [repeat constructor|].
  split; [vm_compute; reflexivity|]. eexists. split; [left; reflexivity | reflexivity].
Qed.
(** A maximal length of 0 never ends. *)
Theorem zero_length_refuted : (exists chunks, snd (text8 0 chunks) = Loops) /\ (exists file, snd (line_sentence 0 None file) = Loops).
Proof. split; [exists [[97]%N] | exists [97]%N]; vm_compute; reflexivity. Qed.
(** A subdirectory makes the reader of a directory fail. *)
Theorem subdirectory_refuted : exists dir, snd (path_line_sentences 5 None dir) = Raised OSErr.
Proof. exists [(str "a.txt", Some [97]%N); (str "b", None)]. reflexivity. Qed.

(** A two-byte character split between buffers, and a cut in the middle of a word. *)
Example text8_ex : text8 2 [[97; 32; 98; 195]%N; [169; 99; 32]%N; [100; 32; 101]%N] = ([[str "a"; [98; 233; 99]%N]; [str "d"; str "e"]], Ended).
Proof. vm_compute. reflexivity. Qed.
Example line_ex : line_sentence 2 (Some 2) (str "a b  c
d
e") = ([[str "a"; str "b"]; [str "c"]; [str "d"]], Ended).
Proof. vm_compute. reflexivity. Qed.
Example path_ex : path_line_sentences 9 None [(str "b", Some (str "x y")); (str "a", Some (str "u
v"))] = ([[str "u"]; [str "v"]; [str "x"; str "y"]], Ended).
Proof. vm_compute. reflexivity. Qed.
