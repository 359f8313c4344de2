(** Texts in which the patterns find nothing, files, and ordinary markup. *)
From Coq Require Import ZifyBool ZifyNat ZifyN.
From Verif Require Import Base Str Tfidf_Spec Regex_Model Wiki_Spec Regex_Proofs Wiki_Model Wiki_Proofs Wiki_Proofs2.
Local Open Scope nat_scope.

Ltac lcat H u v A := apply lang_cat in H as (u & v & -> & A & H).
Lemma headed_p0 : headed RE_P0 60. Proof. apply headed_cat. apply (headed_lit 60%N). Qed.
Lemma headed_element : forall n, headed (element n) 60.
Proof. intros n. apply headed_cat. apply (headed_lit 60%N). Qed.
Lemma headed_p11 : headed RE_P11 60. Proof. apply headed_cat, headed_ch. Qed.
Lemma headed_p14 : headed RE_P14 91. Proof. apply headed_cat. apply (headed_lit 91%N). Qed.
Lemma headed_p15 : headed RE_P15 91. Proof. apply headed_cat. apply (headed_lit 91%N). Qed.
Lemma headed_p16 : headed RE_P16 91. Proof. apply headed_cat. apply (headed_lit 91%N). Qed.
Lemma headed_p6 : headed RE_P6 91. Proof. apply headed_cat, headed_ch. Qed.
Lemma sub_headed : forall r h rep s, headed r h -> ~ In h s -> sub r rep s = s.
Proof.
  intros r h rep s H NI. apply sub_same. intros a w b -> _ L. destruct (H w L) as (w' & ->). apply NI. apply in_or_app. right. left. reflexivity.
Qed.
Lemma in_infix : forall a w b (c : N), In c w -> In c (a ++ w ++ b).
Proof. intros. apply in_or_app. right. apply in_or_app. left. assumption. Qed.

(** An opened bracket, and then characters other than the bar and the closing bracket, up to a colon *)
Definition colon_link (w : pystr) : Prop := exists a u b, w = a ++ 91%N :: u ++ 58%N :: b /\ ~ In 124%N u /\ ~ In 93%N u.
(** After every opened bracket the bar or the closing bracket comes before the colon. *)
Definition barred (s : pystr) : Prop := forall a b, s = a ++ 91%N :: b -> exists t c z, b = t ++ c :: z /\ ~ In 58%N t /\ (c = 124%N \/ c = 93%N).
Lemma barred_no_colon : forall a w b, barred (a ++ w ++ b) -> ~ colon_link w.
Proof.
  intros a w b H (x & u & y & -> & N1 & N2). destruct (H (a ++ x) (u ++ 58%N :: y ++ b)) as (t & c & z & E & NT & C); [repeat (rewrite <- app_assoc; cbn [app]); reflexivity|].
  clear H. revert t E NT. induction u as [|d u IH]; intros t E NT; destruct t as [|e t]; cbn [app] in E.
  - injection E as E0 _. destruct C; congruence.
  - injection E as E0 _. apply NT. left. congruence.
  - injection E as -> _. destruct C as [->| ->]; [apply N1 | apply N2]; left; reflexivity.
  - injection E as -> E. apply (IH (fun I => N1 (or_intror I)) (fun I => N2 (or_intror I)) t E). intros I. apply NT. right. exact I.
Qed.
Lemma barred_none : forall s, ~ In 91%N s -> barred s.
Proof. intros s NI a b ->. exfalso. apply NI. apply in_or_app. right. left. reflexivity. Qed.
Lemma app_cons_split : forall (a b x : pystr) (c : N) y, a ++ b = x ++ c :: y -> (exists z, a = x ++ c :: z /\ y = z ++ b) \/ (exists z, x = a ++ z /\ b = z ++ c :: y).
Proof.
  induction a as [|d a IH]; intros b x c y E; [right; exists x; split; [reflexivity | exact E]|]. destruct x as [|e x]; cbn [app] in E.
  - injection E as -> <-. left. exists a. split; reflexivity.
  - injection E as -> E. destruct (IH _ _ _ _ E) as [(z & -> & ->)|(z & -> & ->)]; [left | right]; exists z; split; reflexivity.
Qed.
Lemma barred_app : forall s t, barred s -> barred t -> barred (s ++ t).
Proof.
  intros s t A B a b E. destruct (app_cons_split _ _ _ _ _ E) as [(z & -> & ->)|(z & -> & ->)].
  - destruct (A a z eq_refl) as (u & c & y & -> & NU & C). exists u, c, (y ++ t). rewrite <- app_assoc. repeat split; assumption.
  - destruct (B z b eq_refl) as (u & c & y & -> & NU & C). exists u, c, y. repeat split; assumption.
Qed.

Section Wiki.
Context (wordc decimal : N -> bool) (bar_no_word : wordc 124%N = false) (close_no_word : wordc 93%N = false).

Lemma p2_colon : forall w, lang (RE_P2 wordc) w -> colon_link w.
Proof.
  intros w L. unfold RE_P2, plus in L. apply lang_cat in L as (u & v & -> & L & _). apply lang_cat in L as (u1 & v1 & -> & L & _). apply lang_grp in L. cbn [seq] in L.
  lcat L w1 w2 A1. apply lang_ch in A1 as ->. lcat L w3 w4 A2. apply lang_lit in A2 as ->. lcat L w5 w6 A3. apply lang_chr in A3 as (c1 & -> & F1). lcat L w7 w8 A4. apply lang_chr in A4 as (c2 & -> & F2).
  lcat L w9 w10 A5. apply lang_star in A5. lcat L w11 w12 A6. apply lang_ch in A6 as ->.
  exists [nl; 91%N], (c1 :: c2 :: w9), ((w12 ++ v1) ++ v). split; [repeat (rewrite <- app_assoc; cbn [app]); reflexivity|].
  assert (G : forall d, d = 124%N \/ d = 93%N -> ~ In d (c1 :: c2 :: w9)).
  { intros d D [<-|[<-|I]]; [destruct D as [->| ->]; discriminate | destruct D as [->| ->]; discriminate|]. rewrite Forall_forall in A5. specialize (A5 d I). destruct D as [->| ->]; [rewrite bar_no_word in A5 | rewrite close_no_word in A5]; discriminate. }
  split; apply G; auto.
Qed.
Lemma p5_colon : forall w, lang (RE_P5 wordc) w -> colon_link w.
Proof.
  intros w L. unfold RE_P5 in L. cbn [seq] in L. lcat L w1 w2 A1. apply lang_ch in A1 as ->. lcat L w3 w4 A2. apply lang_grp, lang_plus in A2 as (_ & A2). lcat L w5 w6 A3. apply lang_lit in A3 as ->.
  exists [], w3, (str "//" ++ w6). split; [reflexivity|]. rewrite Forall_forall in A2. split; intros I; specialize (A2 _ I); congruence.
Qed.
Lemma p14_colon : forall w, lang RE_P14 w -> colon_link w.
Proof.
  intros w L. unfold RE_P14 in L. cbn [seq] in L. lcat L w1 w2 A1. apply lang_lit in A1 as ->. exists [91%N], (str "Category"), w2. split; [reflexivity|].
  split; vm_compute; intuition discriminate.
Qed.
Lemma sub_barred : forall r rep s, (forall w, lang r w -> colon_link w) -> barred s -> sub r rep s = s.
Proof. intros r rep s H B. apply sub_same. intros a w b -> _ L. exact (barred_no_colon a w b B (H w L)). Qed.
Lemma p6_bar : forall w, lang RE_P6 w -> In 124%N w.
Proof. intros w L. unfold RE_P6 in L. cbn [seq] in L. lcat L w1 w2 A1. lcat L w3 w4 A2. lcat L w5 w6 A3. apply lang_ch in A3 as ->. apply in_or_app. right. apply in_or_app. right. left. reflexivity. Qed.
(** Table lines have a bar that is followed by a minus or a brace, or follows a brace. *)
Definition table_mark (w : pystr) : Prop := infix (str "{|") w \/ infix (str "|-") w \/ infix (str "|}") w.
Lemma p12_mark : forall w, lang (RE_P12 decimal) w -> table_mark w.
Proof.
  intros w L. unfold RE_P12 in L. cbn [seq alts] in L. lcat L w1 w2 A1. apply lang_alt in A1 as [A|A].
  - apply lang_lit in A as ->. left. exists [], w2. reflexivity.
  - apply lang_alt in A as [A|A].
    + lcat A w3 w4 B. apply lang_lit in B as ->. right. left. exists [], (w4 ++ w2). rewrite <- app_assoc. reflexivity.
    + apply lang_lit in A as ->. right. right. exists [], w2. reflexivity.
Qed.
Lemma infix_trans : forall g (a w b : pystr), infix g w -> infix g (a ++ w ++ b).
Proof. intros. apply infix_app. assumption. Qed.
Lemma sub_table : forall rep s, ~ table_mark s -> sub (RE_P12 decimal) rep s = s.
Proof.
  intros rep s H. apply sub_same. intros a w b -> _ L. apply H. destruct (p12_mark w L) as [I|[I|I]]; [left | right; left | right; right]; apply infix_trans, I.
Qed.
Lemma attributes_word : forall b w, lang (attributes decimal b) w -> exists v, In v attribute_words /\ infix v w.
Proof.
  intros b w L. unfold attributes in L.
  assert (G : lang (alts [lit (str "bgcolor"); seq [upto 1 (Chr decimal); opt (ch 32); lit (str "colspan")]; lit (str "rowspan"); lit (str "style="); lit (str "class="); lit (str "align="); lit (str "scope=")]) w).
  { destruct b; [exact L|]. cbn [alts app] in *. repeat (apply lang_alt in L as [L|L]; [apply L_altl; exact L | apply L_altr]). apply L_altl. exact L. }
  clear L. cbn [alts] in G.
  repeat (apply lang_alt in G as [G|G]; [first [apply lang_lit in G as ->; eexists; split; [|exists [], []; rewrite app_nil_r; reflexivity]; unfold attribute_words; cbn [map In]; tauto
                                               | cbn [seq] in G; lcat G u1 u2 A; lcat G u3 u4 B; apply lang_lit in G as ->; exists (str "colspan"); split; [unfold attribute_words; cbn [map In]; tauto | exists (u1 ++ u3), []; rewrite app_nil_r, <- app_assoc; reflexivity]]|]).
  apply lang_lit in G as ->. eexists. split; [|exists [], []; rewrite app_nil_r; reflexivity]. unfold attribute_words; cbn [map In]; tauto.
Qed.
Lemma sub_attribute : forall rep s, no_attribute s -> sub (RE_P17 decimal) rep s = s.
Proof.
  intros rep s H. apply sub_same. intros a w b -> _ L. unfold RE_P17 in L. cbn [seq] in L.
  assert (G : exists v, In v attribute_words /\ infix v w).
  { apply lang_alt in L as [L|L]; lcat L u1 u2 A; lcat L u3 u4 B; lcat L u5 u6 C; destruct (attributes_word _ _ C) as (v & I & J); exists v; (split; [exact I|]); rewrite app_assoc; apply (infix_app v (u1 ++ u3) u5 u6 J). }
  destruct G as (v & I & J). apply (H v I). apply infix_trans, J.
Qed.

(** ** Cells of tables *)
Definition quiet (s : pystr) : Prop := forall a c b, s = a ++ c :: b -> c = 124%N \/ c = 33%N -> a = [] \/ exists a' d, a = a' ++ [d] /\ ~ In d [10; 9; 32]%N.
Lemma p13_behind : forall bk s, cell_behind bk = false -> m1 RE_P13 bk s = None.
Proof. intros bk s H. unfold m1, RE_P13. cbn [seq]. rewrite m_cat. cbn [m back]. rewrite H. reflexivity. Qed.
Lemma p13_head : forall bk c s, c <> 124%N -> c <> 33%N -> m1 RE_P13 bk (c :: s) = None.
Proof.
  intros bk c s N1 N2. apply m1_none. intros w t E L. unfold RE_P13 in L. cbn [seq] in L. lcat L u1 u2 A. apply lang_lookw in A as ->. lcat L u3 u4 B. apply lang_chr in B as (d & -> & F).
  injection E as -> _. apply Bool.orb_true_iff in F as [F|F]; apply N.eqb_eq in F; congruence.
Qed.
Lemma cell_behind_last : forall bk, cell_behind bk = true -> exists y b, bk = y :: b /\ In y [10; 9; 32]%N.
Proof.
  intros [|y [|x bk]] H; try discriminate. exists y, (x :: bk). split; [reflexivity|]. cbn [cell_behind] in H. unfold nl in H. cbn [In].
  repeat (apply Bool.orb_true_iff in H as [H|H]); apply Bool.andb_true_iff in H as (_ & H); apply N.eqb_eq in H; subst; tauto.
Qed.
Lemma sub_quiet : forall rep s, quiet s -> sub RE_P13 rep s = s.
Proof.
  intros rep s H. unfold sub. assert (G : forall t bk, rev bk ++ t = s -> sub_from RE_P13 rep 0 bk t = t); [|apply (G s []); reflexivity].
  induction t as [|c t IH]; intros bk E; [reflexivity|]. rewrite sub_none; [f_equal; apply IH; cbn [rev]; rewrite <- app_assoc; exact E|].
  destruct (N.eq_dec c 124) as [C|C]; [|destruct (N.eq_dec c 33) as [C'|C']; [|apply p13_head; assumption]];
    (destruct (cell_behind bk) eqn:CB; [|apply p13_behind; exact CB]; exfalso; apply cell_behind_last in CB as (y & b & -> & I);
     destruct (H (rev (y :: b)) c t (eq_sym E)) as [K|(a' & d & K & NI)]; [auto | cbn [rev] in K; destruct (rev b); discriminate | cbn [rev] in K; apply app_inj_tail in K as (_ & ->); exact (NI I)]).
Qed.

(** ** Text without markup *)
Lemma infix_in : forall g s (c : N), infix g s -> In c g -> In c s.
Proof. intros g s c (u & v & ->) I. apply in_infix, I. Qed.
Lemma file_none : forall s, ~ In 91%N s -> remove_file s = s.
Proof.
  intros s NI. unfold remove_file. replace (finditer RE_P15 s) with (@nil (pystr * st)); [reflexivity|]. unfold finditer. symmetry. rewrite <- (app_nil_r s). rewrite finditer_over; [reflexivity|].
  intros a c b bk ->. apply (headed_none RE_P15 91%N _ _ _ headed_p15). intros ->. apply NI. apply in_or_app. right. left. reflexivity.
Qed.
Lemma pass_plain : forall simplify s, ~ In 60%N s -> ~ In 91%N s -> ~ In 124%N s -> ~ infix (str "!!") s -> quiet s -> no_attribute s -> markup_pass wordc decimal simplify s = s.
Proof.
  intros simplify s N60 N91 N124 NB Q NA. unfold markup_pass.
  rewrite (sub_headed RE_P0 60) by (try exact headed_p0; exact N60). rewrite (sub_headed RE_P1 60) by (try apply headed_element; exact N60).
  rewrite (sub_headed RE_P9 60) by (try apply headed_element; exact N60). rewrite (sub_headed RE_P10 60) by (try apply headed_element; exact N60).
  rewrite (sub_headed RE_P11 60) by (try exact headed_p11; exact N60). rewrite (sub_headed RE_P14 91) by (try exact headed_p14; exact N91).
  rewrite (sub_barred (RE_P5 wordc)) by (try exact p5_colon; apply barred_none, N91).
  assert (E6 : (if simplify then sub RE_P6 (group 2) s else s) = s) by (destruct simplify; [apply (sub_headed RE_P6 91); [exact headed_p6 | exact N91] | reflexivity]). rewrite E6.
  rewrite (replace_same (str "!!")) by (try discriminate; exact NB).
  assert (NX : forall g, In 124%N g -> ~ infix g s) by (intros g I J; exact (N124 (infix_in g s _ J I))).
  rewrite (replace_same (str "|-||")) by (try discriminate; apply NX; left; reflexivity).
  rewrite sub_table by (intros [I|[I|I]]; revert I; apply NX; vm_compute; tauto).
  rewrite (replace_same (str "|||")) by (try discriminate; apply NX; left; reflexivity).
  rewrite (replace_same (str "||")) by (try discriminate; apply NX; left; reflexivity).
  rewrite sub_quiet by exact Q. rewrite sub_attribute by exact NA. apply replace_same; [discriminate|]. intros I. apply N91. apply (infix_in _ _ _ I). left. reflexivity.
Qed.
Lemma loop_same : forall n simplify s, markup_pass wordc decimal simplify s = s -> markup_loop wordc decimal n simplify s = s.
Proof. intros n simplify s E. destruct n; cbn [markup_loop]; rewrite E; unfold eqb; (destruct (eq_dec s s); [reflexivity | congruence]). Qed.
Lemma promote_none : forall s, ~ In 91%N s -> ~ In 93%N s -> replace (str "]") [] (replace (str "[") [] s) = s.
Proof.
  intros s N1 N2. rewrite promoted. induction s as [|c s IH]; [reflexivity|]. cbn [filter].
  destruct (N.eqb_spec 91 c) as [E|_]; [exfalso; apply N1; left; auto|]. destruct (N.eqb_spec 93 c) as [E|_]; [exfalso; apply N2; left; auto|].
  cbn [negb andb]. f_equal. apply IH; intros I; [apply N1 | apply N2]; right; exact I.
Qed.
Lemma markup_plain : forall promote simplify s, ~ In 60%N s -> ~ In 91%N s -> ~ In 93%N s -> ~ In 124%N s -> no_template s -> ~ infix (str "!!") s -> quiet s -> no_attribute s ->
  remove_markup wordc decimal promote simplify s = s.
Proof.
  intros promote simplify s N60 N91 N93 N124 NT NB Q NA. unfold remove_markup.
  rewrite (sub_barred (RE_P2 wordc)) by (try exact p2_colon; apply barred_none, N91). rewrite template_plain by exact NT. rewrite file_none by exact N91.
  rewrite loop_same by (apply pass_plain; assumption). destruct promote; [apply promote_none; assumption | reflexivity].
Qed.
End Wiki.
