(** Files and their captions. *)
From Coq Require Import ZifyBool ZifyNat ZifyN.
From Verif Require Import Base Str Tfidf_Spec Regex_Model Wiki_Spec Regex_Proofs Wiki_Model Wiki_Proofs Wiki_Proofs2 Wiki_Proofs3.
Local Open Scope nat_scope.

Lemma chr_ok : forall {R} (f : N -> bool) c t bk cp (k : st -> option R), f c = true -> m (Chr f) (mkSt bk (c :: t) cp) k = k (mkSt (c :: bk) t cp).
Proof. intros R f c t bk cp k F. cbn [m ahead]. rewrite F. reflexivity. Qed.
Lemma chr_fail : forall {R} (f : N -> bool) c t bk cp (k : st -> option R), f c = false -> m (Chr f) (mkSt bk (c :: t) cp) k = None.
Proof. intros R f c t bk cp k F. cbn [m ahead]. rewrite F. reflexivity. Qed.
Lemma word_shape : forall w, In w file_words -> exists w', w = 91%N :: 91%N :: w' /\ ~ In 93%N w.
Proof. intros w [<-|[<-|[<-|[<-|[]]]]]; eexists; (split; [reflexivity | vm_compute; intuition discriminate]). Qed.
Lemma p15_word : forall v, lang RE_P15 v -> exists w u, In w file_words /\ v = w ++ u.
Proof.
  intros v L. unfold RE_P15 in L. cbn [seq] in L. lcat L u1 u2 A. apply lang_lit in A as ->. lcat L u3 u4 B. apply lang_grp, lang_alt in B as [B|B]; lcat B b1 b2 C; apply lang_chr in C as (c & -> & F); apply lang_lit in B as ->;
    apply Bool.orb_true_iff in F as [F|F]; apply N.eqb_eq in F; subst c.
  - exists (str "[[file:"), u4. split; [right; left; reflexivity | reflexivity].
  - exists (str "[[File:"), u4. split; [left; reflexivity | reflexivity].
  - exists (str "[[image"), u4. split; [right; right; right; left; reflexivity | reflexivity].
  - exists (str "[[Image"), u4. split; [right; right; left; reflexivity | reflexivity].
Qed.
Lemma p15_none : forall bk s, (forall w, In w file_words -> begins w s = false) -> m1 RE_P15 bk s = None.
Proof.
  intros bk s H. apply m1_none. intros v t -> L. destruct (p15_word v L) as (w & u & I & ->). specialize (H w I).
  assert (B : begins w ((w ++ u) ++ t) = true) by (apply begins_iff; exists (u ++ t); symmetry; apply app_assoc). congruence.
Qed.
Lemma p15_tail : forall u bk rest cp, ~ In 93%N u ->
  exists x, m (Cat (many (none_of (str "]"))) (Grp 2 (lit (str "]]")))) (mkSt bk (u ++ str "]]" ++ rest) cp) (@Some st) = Some x /\ ahead x = rest.
Proof.
  intros u bk rest cp NI. eexists. split.
  - rewrite m_cat. apply (greedy_first _ u [] (str "]]" ++ rest)).
    + apply Forall_forall. intros c I. apply none_of_iff. intros [E|[]]. apply NI. change 93%N with (Ascii.N_of_ascii (Ascii.Ascii true false true true true false true false)). rewrite E. exact I.
    + constructor.
    + reflexivity.
    + intros p q E NE. symmetry in E. apply app_eq_nil in E as (-> & _). congruence.
    + change ([] ++ str "]]" ++ rest) with (str "]]" ++ rest). rewrite m_grp.
      rewrite lit_ok. reflexivity.
  - reflexivity.
Qed.
Lemma p15_hit : forall w u bk rest, In w file_words -> ~ In 93%N u -> exists x, m1 RE_P15 bk (w ++ u ++ str "]]" ++ rest) = Some x /\ ahead x = rest.
Proof.
  intros w u bk rest I NI. unfold m1, RE_P15. cbn [seq]. rewrite m_cat.
  assert (E : exists w', w = str "[[" ++ w' /\ In w' (map str ["File:"; "file:"; "Image"; "image"]%string)) by (destruct I as [<-|[<-|[<-|[<-|[]]]]]; eexists; (split; [reflexivity|]); cbn [map In]; tauto).
  destruct E as (w' & -> & I'). rewrite <- app_assoc, lit_ok, m_cat, m_grp, m_alt, 2 m_cat.
  destruct I' as [<-|[<-|[<-|[<-|[]]]]].
  - change (str "File:" ++ u ++ str "]]" ++ rest) with (70%N :: str "ile:" ++ u ++ str "]]" ++ rest). rewrite chr_ok by reflexivity. rewrite lit_ok. unfold grab. cbn [back ahead caps].
    match goal with |- exists x, match m _ (mkSt ?b _ ?c) _ with _ => _ end = _ /\ _ => destruct (p15_tail u b rest c NI) as (x & E & A) end. exists x. split; [|exact A]. rewrite E. reflexivity.
  - change (str "file:" ++ u ++ str "]]" ++ rest) with (102%N :: str "ile:" ++ u ++ str "]]" ++ rest). rewrite chr_ok by reflexivity. rewrite lit_ok. unfold grab. cbn [back ahead caps].
    match goal with |- exists x, match m _ (mkSt ?b _ ?c) _ with _ => _ end = _ /\ _ => destruct (p15_tail u b rest c NI) as (x & E & A) end. exists x. split; [|exact A]. rewrite E. reflexivity.
  - change (str "Image" ++ u ++ str "]]" ++ rest) with (73%N :: str "mage" ++ u ++ str "]]" ++ rest). rewrite chr_fail by reflexivity. rewrite chr_ok by reflexivity. rewrite lit_ok. unfold grab. cbn [back ahead caps].
    apply p15_tail, NI.
  - change (str "image" ++ u ++ str "]]" ++ rest) with (105%N :: str "mage" ++ u ++ str "]]" ++ rest). rewrite chr_fail by reflexivity. rewrite chr_ok by reflexivity. rewrite lit_ok. unfold grab. cbn [back ahead caps].
    apply p15_tail, NI.
Qed.

(** ** Text between files *)
Lemma settled_start : forall D a1 a2 w X, settled D -> D = a1 ++ a2 -> a2 <> [] -> In w file_words -> begins w (a2 ++ X) = false.
Proof.
  intros D a1 a2 w X (S1 & S2) -> NE I. destruct (begins w (a2 ++ X)) eqn:B; [exfalso|reflexivity]. apply begins_iff in B as (t & E).
  destruct (word_shape w I) as (w' & W & NW). destruct a2 as [|c a2]; [congruence|]. rewrite W in E. cbn [app] in E. injection E as -> E. specialize (S2 a1 a2 eq_refl).
  apply in_split in S2 as (p & q & ->).
  (* the word is shorter than what is settled *)
  assert (L : exists z, 91%N :: p = w ++ z).
  { rewrite W in *. assert (E' : (91%N :: p) ++ 93%N :: q ++ X = (91%N :: 91%N :: w') ++ t) by (cbn [app]; rewrite <- E, <- app_assoc; reflexivity). symmetry in E'.
    destruct (app_cons_split _ _ _ _ _ E') as [(z & Z1 & _)|(z & Z1 & _)]; [exfalso; apply NW; rewrite Z1; apply in_or_app; right; left; reflexivity | exists z; exact Z1]. }
  destruct L as (z & L). apply (S1 w I). exists a1, (z ++ 93%N :: q). replace (a1 ++ 91%N :: p ++ 93%N :: q) with (a1 ++ (91%N :: p) ++ 93%N :: q) by reflexivity. rewrite L, <- !app_assoc. reflexivity.
Qed.
Lemma settled_app : forall a b, settled a -> settled b -> settled (a ++ b).
Proof.
  intros a b SA SB. split.
  - intros w I (u & v & E). destruct (word_shape w I) as (w' & W & NW). rewrite W in E. cbn [app] in E. destruct (app_cons_split _ _ _ _ _ E) as [(z & -> & Z)|(z & -> & Z)].
    + assert (B : begins w ((91%N :: z) ++ b) = false) by (apply (settled_start (u ++ 91%N :: z) u); [exact SA | reflexivity | discriminate | exact I]).
      assert (B' : begins w ((91%N :: z) ++ b) = true) by (apply begins_iff; exists v; cbn [app]; rewrite <- Z, W; reflexivity). congruence.
    + apply (proj1 SB w I). exists z, v. rewrite Z, W. reflexivity.
  - intros x y E. destruct (app_cons_split _ _ _ _ _ E) as [(z & -> & ->)|(z & -> & ->)].
    + apply in_or_app. left. apply (proj2 SA x z eq_refl).
    + apply (proj2 SB z y eq_refl).
Qed.
Lemma settled_none : forall t, ~ In 91%N t -> settled t.
Proof.
  intros t NI. split.
  - intros w I J. destruct (word_shape w I) as (w' & W & _). apply NI. apply (infix_in w t _ J). rewrite W. left. reflexivity.
  - intros a b ->. exfalso. apply NI. apply in_or_app. right. left. reflexivity.
Qed.

(** ** The captions *)
Lemma last_split : forall c z t, ~ In c t -> last (split_on c (z ++ c :: t)) [] = t.
Proof.
  intros c z t NI. induction z as [|d z IH]; cbn [app split_on].
  - destruct (eq_dec c c); [|congruence]. rewrite split_on_word by exact NI. reflexivity.
  - destruct (eq_dec d c).
    + destruct (split_on c (z ++ c :: t)) as [|w ws] eqn:E; [exfalso; exact (split_on_nonempty _ _ E)|]. exact IH.
    + assert (L : exists w w' ws, split_on c (z ++ c :: t) = w :: w' :: ws).
      { clear. induction z as [|d z (w & w' & ws & IH)]; cbn [app split_on].
        - destruct (eq_dec c c); [|congruence]. destruct (split_on c t) as [|w ws] eqn:E; [exfalso; exact (split_on_nonempty _ _ E)|]. eauto.
        - rewrite IH. destruct (eq_dec d c); eauto. }
      destruct L as (w & w' & ws & L). rewrite L in *. exact IH.
Qed.
Lemma caption_exact : forall f, good_file f -> caption (file_source f) = fcaption f.
Proof.
  intros f (_ & _ & C). unfold caption, file_source. set (a := fword f ++ fbody f). replace (fword f ++ fbody f ++ str "|" ++ fcaption f ++ str "]]") with ((a ++ 124%N :: fcaption f) ++ str "]]") by (unfold a; rewrite <- !app_assoc; reflexivity).
  rewrite app_length. change (length (str "]]")) with 2. rewrite Nat.add_sub, firstn_app, firstn_all, Nat.sub_diag. cbn [firstn]. rewrite app_nil_r. apply last_split.
  intros I. rewrite Forall_forall in C. apply (C _ I). vm_compute. tauto.
Qed.
Definition files_source (fs : list (pystr * filelink)) (g : pystr) : pystr := concat (map (fun p => fst p ++ file_source (snd p)) fs) ++ g.
Definition files_shown (fs : list (pystr * filelink)) (g : pystr) : pystr := concat (map (fun p => fst p ++ fcaption (snd p)) fs) ++ g.
Lemma settled_caption : forall f, good_file f -> settled (fcaption f).
Proof. intros f (_ & _ & C). apply settled_none. intros I. rewrite Forall_forall in C. apply (C _ I). vm_compute. tauto. Qed.
Lemma files_found : forall fs g bk, Forall (fun p => settled (fst p) /\ good_file (snd p)) fs -> settled g ->
  map fst (finditer_from RE_P15 0 bk (files_source fs g)) = map (fun p => file_source (snd p)) fs.
Proof.
  intros fs g bk F G. revert bk. induction F as [|[t f] fs (St & Gf) F IH]; intros bk; cbn [fst snd] in *; unfold files_source; cbn [map concat fst snd].
  - cbn [app]. rewrite <- (app_nil_r g), finditer_over; [reflexivity|]. intros a c b bk' E. apply p15_none. intros w I.
    apply (settled_start g a (c :: b) w []); [exact G | exact E | discriminate | exact I].
  - rewrite <- !app_assoc. rewrite finditer_over.
    + destruct Gf as (I & NB & C).
      assert (NI : ~ In 93%N (fbody f ++ str "|" ++ fcaption f)).
      { intros J. apply in_app_or in J as [J|J]; [exact (NB J)|]. destruct J as [J|J]; [discriminate|]. rewrite Forall_forall in C. apply (C _ J). vm_compute. tauto. }
      destruct (p15_hit (fword f) (fbody f ++ str "|" ++ fcaption f) (rev t ++ bk) (concat (map (fun p => fst p ++ file_source (snd p)) fs) ++ g) I NI) as (x & M & A).
      assert (E : file_source f ++ concat (map (fun p => fst p ++ file_source (snd p)) fs) ++ g = file_source f ++ ahead x) by (rewrite A; reflexivity). rewrite E.
      rewrite finditer_hit.
      * cbn [map fst]. f_equal. rewrite A. apply IH.
      * rewrite <- M, A. f_equal. unfold file_source. rewrite <- !app_assoc. reflexivity.
      * unfold file_source. destruct (word_shape _ I) as (w' & -> & _). discriminate.
    + intros a c b bk' E. apply p15_none. intros w I. change (c :: b ++ ?X) with ((c :: b) ++ X). apply (settled_start t a (c :: b) w); [exact St | exact E | discriminate | exact I].
Qed.
Lemma files_replaced : forall fs g D, Forall (fun p => settled (fst p) /\ good_file (snd p)) fs -> settled D ->
  fold_left (fun s m => replace1 m (caption m) s) (map (fun p => file_source (snd p)) fs) (D ++ files_source fs g) = D ++ files_shown fs g.
Proof.
  intros fs g D F. revert D. induction F as [|[t f] fs (St & Gf) F IH]; intros D SD; cbn [fst snd] in *; unfold files_source, files_shown; cbn [map concat fst snd fold_left]; [reflexivity|].
  replace (D ++ ((t ++ file_source f) ++ concat (map (fun p => fst p ++ file_source (snd p)) fs)) ++ g) with ((D ++ t) ++ file_source f ++ files_source fs g) by (unfold files_source; rewrite <- !app_assoc; reflexivity).
  rewrite replace1_hit.
  - rewrite caption_exact by exact Gf. rewrite app_assoc, IH.
    + unfold files_shown. rewrite <- !app_assoc. reflexivity.
    + apply settled_app; [apply settled_app; assumption | apply settled_caption, Gf].
  - intros a1 a2 E NE. destruct (begins (file_source f) _) eqn:B; [exfalso|reflexivity]. apply begins_iff in B as (z & B).
    assert (I : In (fword f) file_words) by apply Gf.
    pose proof (settled_start (D ++ t) a1 a2 (fword f) (file_source f ++ files_source fs g) (settled_app _ _ SD St) E NE I) as B1.
    assert (B2 : begins (fword f) (a2 ++ file_source f ++ files_source fs g) = true); [|congruence]. apply begins_iff. rewrite B. unfold file_source. rewrite <- app_assoc. eexists. reflexivity.
Qed.
Lemma files_exact : forall fs g, Forall (fun p => settled (fst p) /\ good_file (snd p)) fs -> settled g -> remove_file (files_source fs g) = files_shown fs g.
Proof.
  intros fs g F G. unfold remove_file.
  assert (E : forall (l : list (pystr * st)) s, fold_left (fun s g => replace1 (fst g) (caption (fst g)) s) l s = fold_left (fun s m => replace1 m (caption m) s) (map fst l) s) by (induction l as [|x l IH]; intros s; [reflexivity | apply IH]).
  rewrite E. unfold finditer. rewrite files_found by assumption. apply (files_replaced fs g []); [exact F | apply settled_none; intros []].
Qed.
