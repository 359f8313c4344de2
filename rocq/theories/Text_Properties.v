(** Text cleaning, tokenizing and HTML entities (property C90). *)
From Coq Require Import ZifyBool ZifyNat ZifyN.
From Verif Require Import Base Str Porter_Model Porter_Spec Porter_Proofs Porter_Properties Text_Model Text_Proofs Formats_Base.
Local Open Scope nat_scope.

(** ** Tags *)
(** A tag: something between "<" and the next ">", not empty. *)
Definition tag (t : pystr) : Prop := exists m, t = 60%N :: m ++ [62%N] /\ m <> [] /\ ~ In 62%N m.
Definition tag_at (s : pystr) : Prop := exists t r, tag t /\ s = t ++ r.
Definition no_tags (s : pystr) : Prop := forall a b, s = a ++ b -> ~ tag_at b.
(** From left to right: what begins with a tag loses it, else the first character stays. *)
Inductive tags_removed : pystr -> pystr -> Prop :=
  | tr_nil : tags_removed [] []
  | tr_tag : forall t s u, tag t -> tags_removed s u -> tags_removed (t ++ s) u
  | tr_char : forall c s u, ~ tag_at (c :: s) -> tags_removed s u -> tags_removed (c :: s) (c :: u).

Definition ngt (c : N) : bool := negb (is 62%N c).
Lemma ngt_iff : forall c, ngt c = true <-> c <> 62%N.
Proof. intros c. unfold ngt, is. rewrite negb_true_iff, N.eqb_neq. reflexivity. Qed.
Lemma pmatch_tag : forall c s, pmatch RE_TAGS (c :: s) =
  if N.eqb c 60 then match dropw ngt s with _ :: _ => if starts ngt s then Some [[60%N]; takew ngt s; [62%N]] else None | [] => None end else None.
Proof.
  intros c s. unfold RE_TAGS. rewrite pmatch_one. unfold is at 1. destruct (N.eqb_spec c 60) as [->|Ne]; [|reflexivity]. fold ngt.
  rewrite (pmatch_plus ngt (is 62%N)).
  - destruct (starts ngt s) eqn:S0; [|destruct (dropw ngt s); reflexivity]. rewrite pmatch_one. pose proof (dropw_stop ngt s) as D. destruct (dropw ngt s) as [|d r]; [reflexivity|]. cbn in D. unfold ngt in D. apply negb_false_iff in D. rewrite D. cbn. unfold is in D. apply N.eqb_eq in D. subst d. reflexivity.
  - intros d H1 H2. unfold ngt in H1. rewrite H2 in H1. discriminate.
  - intros t Ht. rewrite pmatch_one. destruct t as [|d t]; [reflexivity|]. cbn in Ht. rewrite Ht. reflexivity.
Qed.
Lemma take_ngt : forall s, ~ In 62%N (takew ngt s).
Proof. intros s H. pose proof (takew_all ngt s) as F. rewrite Forall_forall in F. specialize (F _ H). discriminate. Qed.
Lemma tag_cases : forall c s,
  (exists t r, tag t /\ c :: s = t ++ r /\ pmatch RE_TAGS (c :: s) = Some [[60%N]; takew ngt s; [62%N]] /\ t = concat [[60%N]; takew ngt s; [62%N]] /\ r = skipn (length t - 1) s) \/
  (~ tag_at (c :: s) /\ pmatch RE_TAGS (c :: s) = None).
Proof.
  intros c s. rewrite pmatch_tag. destruct (N.eqb_spec c 60) as [->|Ne].
  - pose proof (dropw_stop ngt s) as D. pose proof (take_drop ngt s) as TD. destruct (dropw ngt s) as [|d r] eqn:E.
    + right. split; [|reflexivity]. intros (t & r & (m & -> & Hm & Nm) & Es). cbn in Es. injection Es as Es. assert (Hi : In 62%N s) by (rewrite Es, <- app_assoc; apply in_app_iff; right; left; reflexivity). rewrite app_nil_r in TD. rewrite <- TD in Hi. exact (take_ngt s Hi).
    + cbn in D. assert (d = 62%N) by (unfold ngt, is in D; apply negb_false_iff, N.eqb_eq in D; exact D). subst d. destruct (starts ngt s) eqn:S0.
      * left. exists (60%N :: takew ngt s ++ [62%N]), r. split; [exists (takew ngt s); split; [reflexivity|]; split; [|apply take_ngt]; destruct s as [|x s]; [discriminate|]; cbn in S0; cbn; rewrite S0; discriminate|].
        split; [cbn; rewrite <- app_assoc; cbn; rewrite TD; reflexivity|]. split; [reflexivity|]. split; [reflexivity|]. cbn [length]. rewrite Nat.sub_succ, Nat.sub_0_r. rewrite <- TD at 2. replace (takew ngt s ++ 62%N :: r) with ((takew ngt s ++ [62%N]) ++ r) by (rewrite <- app_assoc; reflexivity). rewrite skipn_app, skipn_all, Nat.sub_diag. reflexivity.
      * right. split; [|reflexivity]. intros (t & r' & (m & -> & Hm & Nm) & Es). cbn in Es. injection Es as Es. destruct m as [|x m]; [contradiction|]. subst s. cbn in S0. unfold ngt, is in S0. apply negb_false_iff, N.eqb_eq in S0. subst x. apply Nm. left. reflexivity.
  - right. split; [|reflexivity]. intros (t & r & (m & -> & _) & Es). cbn in Es. congruence.
Qed.
Theorem strip_tags_exact : forall s, tags_removed s (strip_tags s).
Proof.
  intros s. induction s as [|c s IH] using drop_ind; [constructor|]. unfold strip_tags. rewrite rsub_step. destruct (tag_cases c s) as [(t & r & Ht & Es & -> & Et & Er)|[Nt ->]].
  - rewrite <- Et. rewrite <- Er, Es. cbn [app]. apply tr_tag; [exact Ht|]. apply IH. rewrite Er, skipn_length. lia.
  - apply tr_char; [exact Nt|]. apply IH. lia.
Qed.
Lemma removed_sub : forall s u, tags_removed s u -> forall x, In x u -> In x s.
Proof. induction 1 as [|t s u Ht H IH|c s u Nt H IH]; intros x Hx; [exact Hx | apply in_app_iff; right; auto | destruct Hx as [->|Hx]; [left; reflexivity | right; auto]]. Qed.
Lemma removed_no_tags : forall s u, tags_removed s u -> no_tags u.
Proof.
  induction 1 as [|t s u Ht H IH|c s u Nt H IH]; [intros a b E (t & r & (m & -> & _) & Eb); destruct a; [cbn in E; subst; discriminate | discriminate] | exact IH|].
  intros a b E Hb. destruct a as [|x a]; [|injection E as _ E; exact (IH a b E Hb)]. cbn in E. subst b. destruct Hb as (t & r & (m & -> & Hm & Nm) & E). cbn in E. injection E as -> E.
  destruct m as [|x m]; [contradiction|]. cbn in E. subst u.
  assert (Hs : In 62%N s) by (apply (removed_sub _ _ H); right; rewrite <- app_assoc; apply in_app_iff; right; left; reflexivity).
  apply Nt. destruct (tag_cases 60%N s) as [(t & r0 & Ht & Es & _)|[_ Pm]]; [exists t, r0; auto|]. exfalso. rewrite pmatch_tag in Pm. cbn [N.eqb Pos.eqb] in Pm. pose proof (take_drop ngt s) as TD. destruct (dropw ngt s) as [|d q] eqn:Ed; [rewrite app_nil_r in TD; rewrite <- TD in Hs; exact (take_ngt s Hs)|].
  destruct (starts ngt s) eqn:S0; [discriminate|]. destruct s as [|y s]; [destruct Hs|]. cbn in S0. unfold ngt, is in S0. apply negb_false_iff, N.eqb_eq in S0. subst y.
  assert (x = 62%N); [|subst; apply Nm; left; reflexivity]. inversion H as [|t' s' u' Ht' H' E1 E2|]; subst; [|reflexivity]. destruct Ht' as (m' & -> & _). discriminate E1.
Qed.
Lemma removed_unique : forall s u, tags_removed s u -> forall v, tags_removed s v -> u = v.
Proof.
  induction 1 as [|g s' u Hg H IH|c s' u Nt H IH]; intros v Hv.
  - inversion Hv as [|g s' u Hg H E1 E2|]; subst; [reflexivity|]. destruct Hg as (m & -> & _). discriminate E1.
  - inversion Hv as [E1 E2|g' s'' u' Hg' H' E1 E2|c s'' u' Nt H' E1 E2]; subst.
    + destruct Hg as (m & -> & _). discriminate.
    + apply IH. assert (Q : s'' = s'); [|subst; exact H']. destruct Hg as (m & -> & Hm & Nm), Hg' as (m' & -> & Hm' & Nm'). cbn in E1. injection E1 as E1. rewrite <- !app_assoc in E1. cbn in E1. clear - E1 Nm Nm'. revert m' E1 Nm'. induction m as [|x m IH]; intros m' E Nm'; destruct m' as [|y m']; cbn in E; [congruence | injection E as E _; exfalso; apply Nm'; left; congruence | injection E as E _; exfalso; apply Nm; left; congruence|]. injection E as -> E. apply (IH (fun H => Nm (or_intror H)) m' E (fun H => Nm' (or_intror H))).
    + exfalso. apply Nt. exists g, s'. auto.
  - inversion Hv as [|g s'' u' Hg H' E1 E2|c' s'' u' Nt' H' E1 E2]; subst; [exfalso; apply Nt; exists g, s''; auto|]. f_equal. apply IH. exact H'.
Qed.
Theorem strip_tags_none_left : forall s, no_tags (strip_tags s).
Proof. intros s. eapply removed_no_tags, strip_tags_exact. Qed.
Print Assumptions strip_tags_exact.
Print Assumptions strip_tags_none_left.
Example strip_tags_ex : strip_tags (str "a<b>c</b> <> <<i>d> 1 < 2 > 3 <x") = str "ac <> d> 1  3 <x".
Proof. vm_compute. reflexivity. Qed.

(** ** Classes of characters *)
Theorem strip_numeric_exact : forall s, strip_numeric s = filter (fun c => negb (is_digit c)) s.
Proof.
  intros s. induction s as [|c s IH] using drop_ind; [reflexivity|]. unfold strip_numeric, RE_NUMERIC in *. rewrite rsub_plus. cbn [filter]. destruct (is_digit c); cbn [negb app].
  - rewrite IH by apply dropw_length. apply filter_drop.
  - f_equal. apply IH. lia.
Qed.
Theorem strip_non_alphanum_exact : forall wordc s, strip_non_alphanum wordc s = map (fun c => if wordc c then c else 32%N) s.
Proof.
  intros wordc s. unfold strip_non_alphanum, RE_NONALPHA. rewrite rsub_one. induction s as [|c s IH]; [reflexivity|]. cbn [map concat]. rewrite IH. destruct (wordc c); reflexivity.
Qed.
(** Runs of a class replaced by one space each *)
Definition blank (f : N -> bool) (c : N) : N := if f c then 32%N else c.
Definition collapse (f : N -> bool) : pystr -> pystr := rsub [plus f] (fun _ => str " ").
Lemma collapse_cons : forall f c s, collapse f (c :: s) = if f c then 32%N :: collapse f (dropw f s) else c :: collapse f s.
Proof. intros f c s. unfold collapse. rewrite rsub_plus. destruct (f c); reflexivity. Qed.
Lemma blank_true : forall f c, f c = true -> blank f c = 32%N.
Proof. intros f c H. unfold blank. rewrite H. reflexivity. Qed.
Lemma blank_false : forall f c, f c = false -> blank f c = c.
Proof. intros f c H. unfold blank. rewrite H. reflexivity. Qed.
Lemma words_blank_drop : forall f keep s, keep 32%N = true -> words is_space (filter keep (map (blank f) (dropw f s))) = words is_space (filter keep (map (blank f) s)).
Proof.
  intros f keep s K. induction s as [|c s IH]; [reflexivity|]. cbn [dropw]. destruct (f c) eqn:E; [|reflexivity]. cbn [map]. rewrite (blank_true f c E). cbn [filter]. rewrite K, IH. rewrite words_space; reflexivity.
Qed.
Lemma words_collapse : forall f keep s cur, keep 32%N = true -> words_aux is_space cur (filter keep (collapse f s)) = words_aux is_space cur (filter keep (map (blank f) s)).
Proof.
  intros f keep s. induction s as [|c s IH] using drop_ind; intros cur K; [reflexivity|]. rewrite collapse_cons. cbn [map]. destruct (f c) eqn:E; [rewrite (blank_true f c E) | rewrite (blank_false f c E)].
  - cbn [filter]. rewrite K. cbn [words_aux]. change (is_space 32) with true. cbv iota. pose proof (words_blank_drop f keep s K) as W. unfold words in W. rewrite (IH (dropw f s) (dropw_length f s) [] K), W. reflexivity.
  - cbn [filter]. destruct (keep c); [cbn [words_aux]; rewrite !(IH s (le_n _)) by exact K; reflexivity | apply IH; [lia | exact K]].
Qed.
Lemma filter_true : forall s : pystr, filter (fun _ => true) s = s.
Proof. induction s as [|c s IH]; [reflexivity|]. cbn. f_equal. exact IH. Qed.
Lemma collapse_words : forall f s, words is_space (collapse f s) = words is_space (map (blank f) s).
Proof. intros f s. pose proof (words_collapse f (fun _ => true) s [] eq_refl) as W. rewrite !filter_true in W. exact W. Qed.
Lemma collapse_none : forall f s, f 32%N = false -> Forall (fun c => f c = false) (collapse f s).
Proof.
  intros f s F. induction s as [|c s IH] using drop_ind; [constructor|]. rewrite collapse_cons. destruct (f c) eqn:E; constructor; [exact F | apply IH, dropw_length | exact E | apply IH; lia].
Qed.
(** Punctuation: none is left, and the words are those between punctuation and white space. *)
Theorem strip_punctuation_exact : forall s, Forall (fun c => punct c = false) (strip_punctuation s) /\
  words is_space (strip_punctuation s) = words is_space (map (blank punct) s) /\
  filter (fun c => negb (is_space c)) (strip_punctuation s) = filter (fun c => negb (is_space c) && negb (punct c)) s.
Proof.
  intros s. split; [apply collapse_none; reflexivity|]. split; [apply collapse_words|]. unfold strip_punctuation, RE_PUNCT. fold (collapse punct).
  induction s as [|c s IH] using drop_ind; [reflexivity|]. rewrite collapse_cons. cbn [filter]. destruct (punct c) eqn:E.
  - cbn [filter]. change (is_space 32) with true. cbn [negb]. rewrite andb_false_r. rewrite IH by apply dropw_length. clear. induction s as [|c s IH]; [reflexivity|]. cbn. destruct (punct c) eqn:E; cbn; [rewrite andb_false_r; exact IH | rewrite E; reflexivity].
  - cbn [filter]. rewrite andb_true_r. rewrite (IH s) by lia. reflexivity.
Qed.
(** White space: the same words, single spaces only. *)
Fixpoint no_double (s : pystr) : Prop := match s with [] => True | c :: s' => (c = 32%N -> starts is_space s' = false) /\ no_double s' end.
Lemma map_blank_words : forall s cur, words_aux is_space cur (map (blank is_space) s) = words_aux is_space cur s.
Proof.
  induction s as [|c s IH]; intros cur; [reflexivity|]. cbn [map words_aux]. destruct (is_space c) eqn:E; [rewrite (blank_true _ _ E); change (is_space 32) with true; cbv iota; rewrite !IH; reflexivity|]. rewrite (blank_false _ _ E), E, IH. reflexivity.
Qed.
Theorem strip_whitespaces_exact : forall s, words is_space (strip_multiple_whitespaces s) = words is_space s /\
  Forall (fun c => is_space c = true -> c = 32%N) (strip_multiple_whitespaces s) /\ no_double (strip_multiple_whitespaces s) /\
  filter (fun c => negb (is_space c)) (strip_multiple_whitespaces s) = filter (fun c => negb (is_space c)) s.
Proof.
  intros s. unfold strip_multiple_whitespaces, RE_WHITESPACE. fold (collapse is_space). split; [rewrite collapse_words; apply (map_blank_words s [])|].
  induction s as [|c s IH] using drop_ind; [repeat split; constructor|]. rewrite collapse_cons. destruct (is_space c) eqn:E.
  - destruct (IH (dropw is_space s) (dropw_length _ s)) as (A & B & C). split; [constructor; auto|]. split.
    + cbn [no_double]. split; [|exact B]. intros _. pose proof (dropw_stop is_space s) as D. destruct (dropw is_space s) as [|d r]; [reflexivity|]. cbn in D. rewrite collapse_cons, D. cbn. exact D.
    + cbn [filter]. change (is_space 32) with true. rewrite E. cbn [negb]. rewrite C. apply filter_drop.
  - destruct (IH s (le_n _)) as (A & B & C). split; [constructor; [congruence | exact A]|]. split.
    + cbn [no_double]. split; [|exact B]. intros ->. discriminate E.
    + cbn [filter]. rewrite E. cbn [negb]. f_equal. exact C.
Qed.
Print Assumptions strip_numeric_exact.
Print Assumptions strip_non_alphanum_exact.
Print Assumptions strip_punctuation_exact.
(** Punctuation is [string.punctuation]: these 32 characters. *)
Definition punctuation : pystr := str "!#$%&'()*+,-./:;<=>?@[\]^_`{|}~" ++ [34%N].
Theorem punctuation_exact : forall c, punct c = true <-> In c punctuation.
Proof.
  intros c. split.
  - intros H. assert (A : (c < 128)%N) by (unfold punct in H; lia). assert (L : forall n, n < 128 -> (if punct (N.of_nat n) then existsb (N.eqb (N.of_nat n)) punctuation else true) = true).
    { assert (F : forallb (fun n => if punct (N.of_nat n) then existsb (N.eqb (N.of_nat n)) punctuation else true) (seq 0 128) = true) by (vm_compute; reflexivity). intros n K. rewrite forallb_forall in F. apply F, in_seq. lia. }
    specialize (L (N.to_nat c) ltac:(lia)). rewrite N2Nat.id, H in L. apply existsb_exists in L as (d & I & E). apply N.eqb_eq in E. subst d. exact I.
  - intros I. assert (F : forallb punct punctuation = true) by (vm_compute; reflexivity). rewrite forallb_forall in F. apply F, I.
Qed.
Print Assumptions punctuation_exact.
Print Assumptions strip_whitespaces_exact.
Example strip_ex :
  strip_punctuation (str "A semicolon; is, -- well. (ok)") = str "A semicolon  is    well   ok " /\
  strip_numeric (str "0text24gensim365test") = str "textgensimtest" /\
  strip_multiple_whitespaces (9%N :: str "  salut" ++ [13%N; 10%N] ++ str " les   loulous! ") = str " salut les loulous! " /\
  strip_non_alphanum (fun c => letter c || is_digit c || (c =? 95)%N) (str "if-you#can_%read$this") = str "if you can_ read this".
Proof. repeat split; vm_compute; reflexivity. Qed.

(** ** Letters and digits *)
Fixpoint spaced (between : N -> N -> bool) (s : pystr) : pystr :=
  match s with
  | [] => []
  | c :: s' => match s' with d :: _ => if between c d then c :: 32%N :: spaced between s' else c :: spaced between s' | [] => [c] end
  end.
Lemma spaced_cons : forall b c d s, spaced b (c :: d :: s) = if b c d then c :: 32%N :: spaced b (d :: s) else c :: spaced b (d :: s).
Proof. reflexivity. Qed.
Lemma rsub_two : forall f g, (forall c, f c = true -> g c = true -> False) -> forall s, rsub [plus f; plus g] groups12 s = spaced (fun c d => f c && g d) s.
Proof.
  intros f g D. assert (Pm : forall s, pmatch [plus f; plus g] s = if starts f s then if starts g (dropw f s) then Some [takew f s; takew g (dropw f s)] else None else None).
  { intros s. rewrite (pmatch_plus f g); [|exact D|].
    - destruct (starts f s); [|reflexivity]. rewrite pmatch_plus_end. destruct (starts g (dropw f s)); reflexivity.
    - intros t Ht. rewrite pmatch_plus_end, Ht. reflexivity. }
  assert (R1 : forall a x, Forall (fun c => f c = true) a -> a <> [] -> spaced (fun c d => f c && g d) (a ++ x) = a ++ (if starts g x then 32%N :: spaced (fun c d => f c && g d) x else spaced (fun c d => f c && g d) x)).
  { intros a x F. induction F as [|c a Hc F IH]; intros Ne; [contradiction|]. destruct a as [|e a].
    - cbn [app]. destruct x as [|y x]; [reflexivity|]. rewrite spaced_cons, Hc. cbn [andb starts]. destruct (g y); reflexivity.
    - cbn [app] in *. rewrite spaced_cons. inversion F as [|? ? He _]; subst. destruct (g e) eqn:Ge; [destruct (D e He Ge)|]. rewrite andb_false_r. f_equal. apply IH. discriminate. }
  assert (R2 : forall a x, Forall (fun c => g c = true) a -> spaced (fun c d => f c && g d) (a ++ x) = a ++ spaced (fun c d => f c && g d) x).
  { intros a x F. induction F as [|c a Hc F IH]; [reflexivity|]. cbn [app]. assert (Fc : f c = false) by (destruct (f c) eqn:E; [destruct (D c E Hc) | reflexivity]). destruct (a ++ x) as [|e r] eqn:E.
    - apply app_eq_nil in E. destruct E as [-> ->]. reflexivity.
    - rewrite spaced_cons, Fc. cbn [andb]. f_equal. exact IH. }
  intros s. induction s as [|c s IH] using drop_ind; [reflexivity|]. rewrite rsub_step, Pm. cbn [starts]. destruct (f c) eqn:Fc.
  - destruct (starts g (dropw f (c :: s))) eqn:G.
    + set (a := takew f (c :: s)) in *. set (x := dropw f (c :: s)) in *. set (b := takew g x). set (y := dropw g x).
      assert (Es : c :: s = a ++ b ++ y) by (unfold b, y; rewrite take_drop; unfold a, x; symmetry; apply take_drop).
      assert (La : 0 < length a) by (unfold a; cbn; rewrite Fc; cbn; lia).
      assert (Esk : skipn (length (concat [a; b]) - 1) s = y).
      { cbn [concat]. rewrite app_nil_r. assert (Q : skipn (length (a ++ b)) (c :: s) = y) by (rewrite Es, app_assoc, skipn_app, skipn_all, Nat.sub_diag; reflexivity). rewrite app_length in *. destruct (length a + length b) as [|n] eqn:En; [lia|]. cbn [skipn] in Q. rewrite Nat.sub_succ, Nat.sub_0_r. exact Q. }
      rewrite Esk. assert (Ly : length y <= length s) by (apply (f_equal (@length N)) in Es; rewrite !app_length in Es; cbn [length] in Es; clearbody a b y; lia). rewrite (IH y Ly). rewrite Es, R1; [|apply takew_all | intros Q; rewrite Q in La; cbn in La; lia].
      assert (Gb : starts g (b ++ y) = true) by (unfold b, y; rewrite take_drop; exact G). rewrite Gb, R2 by apply takew_all. unfold groups12. cbn [nth]. rewrite <- !app_assoc. reflexivity.
    + rewrite (IH s (le_n _)). destruct s as [|d s]; [reflexivity|]. rewrite spaced_cons, Fc. cbn [andb]. destruct (g d) eqn:Gd; [|reflexivity]. exfalso. cbn in G. rewrite Fc in G. destruct (f d) eqn:Fd; [exact (D d Fd Gd)|]. cbn in G. congruence.
  - rewrite (IH s (le_n _)). destruct s as [|d s]; [reflexivity|]. rewrite spaced_cons, Fc. reflexivity.
Qed.
Definition mixed (c d : N) : bool := letter c && is_digit d || is_digit c && letter d.
Lemma letter_digit : forall c, letter c = true -> is_digit c = true -> False.
Proof. intros c. unfold letter, is_digit. lia. Qed.
(** A space is put wherever a small letter and a digit meet, and nowhere else. *)
Theorem split_alphanum_exact : forall s, split_alphanum s = spaced mixed s.
Proof.
  intros s. unfold split_alphanum, RE_AL_NUM, RE_NUM_AL. rewrite (rsub_two letter is_digit letter_digit), (rsub_two is_digit letter (fun c a b => letter_digit c b a)).
  induction s as [|c s IH]; [reflexivity|]. destruct s as [|d s]; [reflexivity|]. rewrite !spaced_cons. unfold mixed at 1. destruct (letter c && is_digit d) eqn:E; cbn [orb].
  - rewrite spaced_cons. change (letter 32) with false. rewrite andb_false_r. f_equal. destruct (spaced (fun c0 d0 => letter c0 && is_digit d0) (d :: s)) as [|y t] eqn:Et; [rewrite <- IH; reflexivity|]. rewrite spaced_cons. change (is_digit 32) with false. cbn [andb]. f_equal. exact IH.
  - destruct (spaced (fun c0 d0 => letter c0 && is_digit d0) (d :: s)) as [|y t] eqn:Et; [destruct s; cbn in Et; [discriminate|]; destruct (_ && _); discriminate|]. assert (y = d) by (destruct s as [|z s]; [cbn in Et; congruence|]; rewrite spaced_cons in Et; destruct (_ && _); congruence). subst y. rewrite spaced_cons. destruct (is_digit c && letter d); rewrite IH; reflexivity.
Qed.
Print Assumptions split_alphanum_exact.
Example split_alphanum_ex : split_alphanum (str "24.0hours7 days365 a1b2c3") = str "24.0 hours 7 days 365 a 1 b 2 c 3".
Proof. vm_compute. reflexivity. Qed.
(** Other letters are not split from digits. *)
Theorem split_capitals_refuted : exists s, split_alphanum s = s /\ s = str "A1 2B".
Proof. exists (str "A1 2B"). split; vm_compute; reflexivity. Qed.
Print Assumptions split_capitals_refuted.

(** ** Words *)
Lemma join_words : forall ws, Forall (fun w => w <> [] /\ Forall (fun c => is_space c = false) w) ws -> words is_space (join (str " ") ws) = ws.
Proof. intros ws F. rewrite <- (app_nil_r (join _ _)). apply words_join; [reflexivity | exact F | constructor]. Qed.
Lemma filter_words : forall (f : pystr -> bool) s, words is_space (join (str " ") (filter f (words is_space s))) = filter f (words is_space s).
Proof.
  intros f s. apply join_words. apply Forall_forall. intros w Hw. apply filter_In in Hw. pose proof (words_ok is_space s) as F. rewrite Forall_forall in F. apply F, Hw.
Qed.
Theorem remove_stopwords_exact : forall s, words is_space (remove_stopwords s) = filter (fun w => negb (memb w STOPWORDS)) (words is_space s).
Proof. intros s. apply filter_words. Qed.
Theorem strip_short_exact : forall m s, words is_space (strip_short m s) = filter (fun w => (m <=? Z.of_nat (length w))%Z) (words is_space s).
Proof. intros m s. apply filter_words. Qed.
Print Assumptions remove_stopwords_exact.
Print Assumptions strip_short_exact.
Example words_ex : remove_stopwords (str "Better late than never, better late.") = str "Better late never, better late." /\ strip_short 3 (str "salut les amis du 59") = str "salut les amis".
Proof. split; vm_compute; reflexivity. Qed.

(** ** All default filters in a row *)
Definition cleaned (t : pystr) : pystr := filter (fun c => negb (is_digit c)) (map (blank punct) t).
Definition kept (w : pystr) : bool := negb (memb w STOPWORDS) && (3 <=? length w).
Definition stemmable (depth : nat) (lower : pystr -> pystr) (w : pystr) : Prop := runs_below depth (lower w) /\ lower w <> [] /\ Forall (fun c => is_space c = false) (lower w).
Lemma filter_collapse_ws : forall s cur, words_aux is_space cur (filter (fun c => negb (is_digit c)) (map (blank is_space) s)) = words_aux is_space cur (filter (fun c => negb (is_digit c)) s).
Proof.
  induction s as [|c s IH]; intros cur; [reflexivity|]. cbn [map]. destruct (is_space c) eqn:E; [rewrite (blank_true _ _ E) | rewrite (blank_false _ _ E)].
  - assert (Dg : is_digit c = false) by (destruct (is_digit c) eqn:Q; [apply digit_not_space in Q; congruence | reflexivity]). cbn [filter]. rewrite Dg. change (is_digit 32) with false. cbn [negb words_aux]. rewrite E. change (is_space 32) with true. cbv iota. rewrite !IH. reflexivity.
  - cbn [filter]. destruct (is_digit c); cbn [negb]; [apply IH|]. cbn [words_aux]. rewrite E. apply IH.
Qed.
Theorem preprocess_string_exact : forall lower depth s t, tags_removed (lower s) t -> Forall (stemmable depth lower) (filter kept (words is_space (cleaned t))) ->
  preprocess_string s (DEFAULT_FILTERS lower depth) = Ok (map (fun w => porter (lower w)) (filter kept (words is_space (cleaned t)))).
Proof.
  intros lower depth s t Ht F.
  assert (Et : t = strip_tags (lower s)) by (eapply removed_unique; [exact Ht | apply strip_tags_exact]).
  assert (W : words is_space (strip_short 3 (remove_stopwords (strip_numeric (strip_multiple_whitespaces (strip_punctuation t))))) = filter kept (words is_space (cleaned t))).
  { rewrite strip_short_exact, remove_stopwords_exact, strip_numeric_exact.
    assert (E : words is_space (filter (fun c => negb (is_digit c)) (strip_multiple_whitespaces (strip_punctuation t))) = words is_space (cleaned t)).
    { unfold strip_multiple_whitespaces, RE_WHITESPACE, words. fold (collapse is_space). rewrite (words_collapse is_space (fun c => negb (is_digit c)) _ [] eq_refl), filter_collapse_ws.
      unfold strip_punctuation, RE_PUNCT. fold (collapse punct). apply (words_collapse punct (fun c => negb (is_digit c)) t [] eq_refl). }
    rewrite E. clear. induction (words is_space (cleaned t)) as [|w ws IH]; [reflexivity|]. cbn [filter]. unfold kept at 1. destruct (memb w STOPWORDS); cbn [negb andb filter]; [exact IH|]. replace (3 <=? Z.of_nat (length w))%Z with (3 <=? length w) by lia. destruct (3 <=? length w); [rewrite IH; reflexivity | exact IH]. }
  unfold preprocess_string, DEFAULT_FILTERS. cbn [rfold rbind]. rewrite <- Et. unfold stem_text. rewrite W. destruct (stem_all_ok depth lower (filter kept (words is_space (cleaned t))) stemmer0) as [st' E]; [eapply Forall_impl; [|exact F]; intros w Hw; apply Hw|]. rewrite E. cbn [rbind fst]. f_equal. apply join_words. apply Forall_map. eapply Forall_impl; [|exact F]. intros w (_ & Ne & Sp). split; [apply porter_nonempty; exact Ne|].
  apply porter_chars; [|exact Sp]. apply Forall_forall. intros c Hc. assert (T : forallb (fun c => negb (is_space c)) letters = true) by (vm_compute; reflexivity). rewrite forallb_forall in T. specialize (T c Hc). destruct (is_space c); [discriminate | reflexivity].
Qed.
Print Assumptions preprocess_string_exact.
Definition ascii_lower (s : pystr) : pystr := map (fun c => if ((65 <=? c) && (c <=? 90))%N then (c + 32)%N else c) s.
Example preprocess_ex :
  preprocess_string (str "<i>Hel 9lo</i> <b>Wo9 rld</b>! Th3     weather_is really g00d today, isn't it?") (DEFAULT_FILTERS ascii_lower 50) = Ok [str "hel"; str "rld"; str "weather"; str "todai"; str "isn"].
Proof. vm_compute. reflexivity. Qed.
(** The tokens may be stop words and short words again: cleaning the cleaned text changes it. *)
Theorem preprocess_twice_refuted : exists s, preprocess_string s (DEFAULT_FILTERS ascii_lower 50) = Ok [str "well"; str "i"] /\ memb (str "well") STOPWORDS = true /\
  preprocess_string (join (str " ") [str "well"; str "i"]) (DEFAULT_FILTERS ascii_lower 50) = Ok [].
Proof. exists (str "wells ies"). repeat split; vm_compute; reflexivity. Qed.
Print Assumptions preprocess_twice_refuted.
(** Text between "<" and ">" is lost even if it is no markup. *)
Theorem comparison_lost_refuted : exists s, preprocess_string s (DEFAULT_FILTERS ascii_lower 50) = Ok [str "price"; str "cost"] /\ s = str "price < income and savings > costs".
Proof. exists (str "price < income and savings > costs"). split; vm_compute; reflexivity. Qed.
Print Assumptions comparison_lost_refuted.

(** ** Tokens *)
(** The maximal runs of word characters other than digits. *)
Theorem simple_tokenize_exact : forall wordc decimal s, simple_tokenize wordc decimal s = words (fun c => decimal c || negb (wordc c)) s.
Proof.
  intros wordc decimal s. unfold simple_tokenize, PAT_ALPHABETIC. set (f := fun c => negb (decimal c) && wordc c).
  assert (E : forall c, (decimal c || negb (wordc c)) = negb (f c)) by (intros c; unfold f; destruct (decimal c), (wordc c); reflexivity).
  assert (W : forall cur s, words_aux (fun c => decimal c || negb (wordc c)) cur s = words_aux (fun c => negb (f c)) cur s) by (intros cur s'; revert cur; induction s' as [|c s' IH]; intros cur; [reflexivity|]; cbn [words_aux]; rewrite E; destruct (f c); cbn [negb]; [apply IH | destruct cur; rewrite IH; reflexivity]).
  unfold words. rewrite W. clear W E. clearbody f. induction s as [|c s IH] using drop_ind; [reflexivity|]. rewrite finditer_plus. destruct (f c) eqn:E.
  - rewrite <- (take_drop f (c :: s)) at 2. pose proof (dropw_stop f (c :: s)) as D. cbn [dropw] in *. rewrite E in *. rewrite words_aux_word by (eapply Forall_impl; [|apply takew_all]; cbv beta; intros a Ha; rewrite Ha; reflexivity). rewrite app_nil_r. rewrite (IH (dropw f s) (dropw_length f s)). destruct (dropw f s) as [|d r].
    + cbn [words_aux]. destruct (rev (takew f (c :: s))) eqn:R; [apply (f_equal (@rev N)) in R; rewrite rev_involutive in R; cbn in R; rewrite E in R; discriminate|]. rewrite <- R, rev_involutive. reflexivity.
    + cbn in D. cbn [words_aux]. rewrite D. cbn [negb]. destruct (rev (takew f (c :: s))) eqn:R; [apply (f_equal (@rev N)) in R; rewrite rev_involutive in R; cbn in R; rewrite E in R; discriminate|]. rewrite <- R, rev_involutive. reflexivity.
  - cbn [words_aux]. rewrite E. cbn [negb]. apply IH. lia.
Qed.
Theorem simple_preprocess_exact : forall wordc decimal lower doc lo hi t, In t (simple_preprocess wordc decimal lower doc lo hi) <->
  In t (words (fun c => decimal c || negb (wordc c)) (lower doc)) /\ (lo <= Z.of_nat (length t) <= hi)%Z /\ (forall t', t <> 95%N :: t').
Proof.
  intros wordc decimal lower doc lo hi t. unfold simple_preprocess. rewrite filter_In, simple_tokenize_exact, andb_true_iff. split; intros [A B]; (split; [exact A|]).
  - destruct B as [B1 B2]. split; [lia|]. intros t' ->. discriminate.
  - destruct B as [B1 B2]. split; [lia|]. destruct t as [|c t]; [reflexivity|]. unfold is. destruct (N.eqb_spec c 95) as [->|Ne]; [destruct (B2 t eq_refl) | reflexivity].
Qed.
Print Assumptions simple_tokenize_exact.
Print Assumptions simple_preprocess_exact.
Definition ascii_word (c : N) : bool := letter c || ((65 <=? c) && (c <=? 90))%N || is_digit c || (c =? 95)%N.
Example tokens_ex :
  simple_tokenize ascii_word is_digit (str "let's go: 300 km4all, a_b!") = [str "let"; str "s"; str "go"; str "km"; str "all"; str "a_b"] /\
  simple_preprocess ascii_word is_digit ascii_lower (str "I saw THE very_long_identifier_name 2day") 2 15 = [str "saw"; str "the"; str "day"].
Proof. split; vm_compute; reflexivity. Qed.
(** "Contiguous sequences of alphabetic characters": the underscore is one of them; a word after an underscore is lost. *)
Theorem underscore_refuted : exists witness, witness = str "a_b _" /\ (simple_tokenize ascii_word is_digit witness = [str "a_b"; str "_"] /\
  simple_preprocess ascii_word is_digit ascii_lower (str "_emphasis_ matters") 2 15 = [str "matters"]).
Proof. exists (str "a_b _"). split; [reflexivity|]. split; vm_compute; reflexivity. Qed.
Print Assumptions underscore_refuted.

(** ** HTML entities *)
(** What \w must at least be *)
Definition word_class (wordc : N -> bool) : Prop := (forall c, is_digit c = true \/ letter c = true -> wordc c = true) /\ wordc 59%N = false /\ wordc 35%N = false.
Lemma run_upto : forall f h w s, Forall (fun c => f c = true) w -> length w <= h -> starts f s = false -> run f (Some h) (w ++ s) = length w.
Proof.
  intros f h w s F. revert h. induction F as [|c w Hc F IH]; intros h L S0.
  - cbn [app length]. destruct s as [|d s]; [destruct h; reflexivity|]. cbn in S0. destruct h; cbn; [reflexivity | rewrite S0; reflexivity].
  - cbn in L. destruct h as [|h]; [lia|]. cbn [app run]. rewrite Hc. cbn [length]. f_equal. apply IH; [lia | exact S0].
Qed.
Lemma in_word_not_semi : forall (f : N -> bool) w s j, Forall (fun c => f c = true) w -> f 59%N = false -> j < length w -> pmatch [one (is 59%N)] (skipn j (w ++ s)) = None.
Proof.
  intros f w s j F N59. revert j. induction F as [|c w Hc F IH]; intros j L; [cbn in L; lia|]. destruct j as [|j]; [|cbn [app skipn]; apply IH; cbn in L; lia]. cbn [app skipn]. rewrite pmatch_one. unfold is. destruct (N.eqb_spec c 59) as [->|Ne]; [congruence | reflexivity].
Qed.
(** The name of an entity, up to eight word characters, and the semicolon after it *)
Lemma pmatch_name : forall wordc w s, word_class wordc -> Forall (fun c => wordc c = true) w -> 1 <= length w <= 8 ->
  pmatch [mkItem wordc 1 (Some 8); one (is 59%N)] (w ++ 59%N :: s) = Some [w; [59%N]].
Proof.
  intros wordc w s (_ & W & _) F L. rewrite (pmatch_run wordc 1 (Some 8) _ _ (length w)).
  - destruct (Nat.ltb_spec (length w) 1) as [L1|L1]; [lia|]. rewrite firstn_app, skipn_app, firstn_all, skipn_all, Nat.sub_diag. cbn [firstn skipn app]. rewrite pmatch_one. cbn. rewrite app_nil_r. reflexivity.
  - apply run_upto; [exact F | lia | exact W].
  - intros j Hj. apply (in_word_not_semi wordc); assumption.
Qed.
Lemma not_amp : forall wordc rep c s, c <> 38%N -> rsub (RE_HTML_ENTITY wordc) rep (c :: s) = c :: rsub (RE_HTML_ENTITY wordc) rep s.
Proof. intros wordc rep c s H. rewrite rsub_step. unfold RE_HTML_ENTITY at 1. rewrite pmatch_one. unfold is at 1. destruct (N.eqb_spec c 38); [contradiction | reflexivity]. Qed.
Theorem decode_plain : forall wordc n2cp s, ~ In 38%N s -> decode_htmlentities wordc n2cp s = s.
Proof.
  intros wordc n2cp s. unfold decode_htmlentities. induction s as [|c s IH]; intros H; [reflexivity|]. rewrite not_amp by (intros ->; apply H; left; reflexivity). f_equal. apply IH. intros Hs. apply H. right. exact Hs.
Qed.
Print Assumptions decode_plain.

Lemma skip_app_minus : forall (a b : pystr) c, skipn (length (c :: a) - 1) (a ++ b) = b.
Proof. intros a b c. cbn [length]. rewrite Nat.sub_succ, Nat.sub_0_r, skipn_app, skipn_all, Nat.sub_diag. reflexivity. Qed.
Definition is_x (c : N) : bool := is 120%N c || is 88%N c.
Lemma pmatch_entity : forall wordc (h x w s : pystr), word_class wordc -> h = [] \/ h = [35%N] -> x = [] /\ starts is_x w = false \/ x = [120%N] \/ x = [88%N] ->
  Forall (fun c => wordc c = true) w -> 1 <= length w <= 8 ->
  pmatch (RE_HTML_ENTITY wordc) (38%N :: h ++ x ++ w ++ 59%N :: s) = Some [[38%N]; h; x; w; [59%N]].
Proof.
  intros wordc h x w s Wc Hh Hx F L. unfold RE_HTML_ENTITY. rewrite pmatch_one. change (is 38 38) with true. cbv iota. fold is_x.
  assert (X : pmatch [maybe is_x; mkItem wordc 1 (Some 8); one (is 59%N)] (x ++ w ++ 59%N :: s) = Some [x; w; [59%N]]).
  { rewrite pmatch_maybe. pose proof (pmatch_name wordc w s Wc F L) as Pn. destruct w as [|c w]; [cbn in L; lia|]. destruct Hx as [[-> Hx]|[-> | ->]]; cbn [app] in *.
    - cbn in Hx. rewrite Hx, Pn. reflexivity.
    - change (is_x 120) with true. cbv iota. rewrite Pn. reflexivity.
    - change (is_x 88) with true. cbv iota. rewrite Pn. reflexivity. }
  rewrite pmatch_maybe. destruct Hh as [-> | ->]; cbn [app].
  - assert (S0 : starts (is 35%N) (x ++ w ++ 59%N :: s) = false).
    { destruct Hx as [[-> _]|[-> | ->]]; [|reflexivity | reflexivity]. destruct F as [|c w Hc F]; [cbn in L; lia|]. cbn. unfold is. destruct (N.eqb_spec c 35) as [->|Ne]; [|reflexivity]. destruct Wc as (_ & _ & W35). congruence. }
    destruct (x ++ w ++ 59%N :: s) as [|c t]; [discriminate X|]. cbn in S0. rewrite S0, X. reflexivity.
  - change (is 35 35) with true. cbv iota. rewrite X. reflexivity.
Qed.
Lemma decode_entity : forall wordc n2cp (h x w s : pystr), word_class wordc -> h = [] \/ h = [35%N] -> x = [] /\ starts is_x w = false \/ x = [120%N] \/ x = [88%N] ->
  Forall (fun c => wordc c = true) w -> 1 <= length w <= 8 ->
  decode_htmlentities wordc n2cp (38%N :: h ++ x ++ w ++ 59%N :: s) = substitute_entity n2cp [[38%N]; h; x; w; [59%N]] ++ decode_htmlentities wordc n2cp s.
Proof.
  intros wordc n2cp h x w s Wc Hh Hx F L. unfold decode_htmlentities at 1. rewrite rsub_step, (pmatch_entity wordc h x w s Wc Hh Hx F L). f_equal. fold (decode_htmlentities wordc n2cp). f_equal.
  replace (h ++ x ++ w ++ 59%N :: s) with ((h ++ x ++ w ++ [59%N]) ++ s) by (rewrite <- !app_assoc; reflexivity). replace (concat [[38%N]; h; x; w; [59%N]]) with (38%N :: h ++ x ++ w ++ [59%N]) by (cbn; rewrite ?app_nil_r; reflexivity). apply skip_app_minus.
Qed.
(** ** Numbers *)
Lemma split_digits : forall s, Forall (fun c => is_digit c = true) s -> split_on 95%N s = [s].
Proof. intros s F. apply split_on_word. intros H. rewrite Forall_forall in F. specialize (F _ H). discriminate. Qed.
Lemma not_x_digit : forall s, Forall (fun c => is_digit c = true) s -> starts is_x s = false.
Proof. intros s F. destruct F as [|c s Hc F]; [reflexivity|]. cbn. unfold is_x, is. unfold is_digit in Hc. lia. Qed.
(** A character given by its number, decimal *)
Theorem decode_decimal : forall wordc n2cp n s, word_class wordc -> (n <= 1114111)%N ->
  decode_htmlentities wordc n2cp (str "&#" ++ show_N n ++ str ";" ++ s) = n :: decode_htmlentities wordc n2cp s.
Proof.
  intros wordc n2cp n s Wc Hn. change (str "&#" ++ show_N n ++ str ";" ++ s) with (38%N :: [35%N] ++ [] ++ show_N n ++ 59%N :: s).
  pose proof (show_N_digits n) as F. pose proof (show_N_length n 8 ltac:(lia) ltac:(lia)) as L. rewrite decode_entity.
  - unfold substitute_entity. cbn [nth nonempty]. unfold int10. rewrite (split_digits _ F). cbn [forallb concat]. rewrite app_nil_r. assert (Ne : nonempty (show_N n) = true) by (destruct (show_N n) eqn:E; [destruct (show_N_nonempty n E) | reflexivity]). rewrite Ne, parse_show_N. cbn [andb]. unfold safe_unichr. replace (n <=? 1114111)%N with true by lia. reflexivity.
  - exact Wc.
  - right. reflexivity.
  - left. split; [reflexivity | apply not_x_digit, F].
  - eapply Forall_impl; [|exact F]. cbv beta. intros c Hc. apply Wc. left. exact Hc.
  - destruct (show_N n) eqn:E; [destruct (show_N_nonempty n E)|]. cbn [length] in *. lia.
Qed.
Print Assumptions decode_decimal.
(** and hexadecimal *)
Definition hexchar (d : N) : N := if (d <? 10)%N then (48 + d)%N else (87 + d)%N.
Definition value16 (ds : list N) : N := fold_left (fun v d => (16 * v + d)%N) ds 0%N.
Lemma hexdigit_char : forall d, (d < 16)%N -> hexdigit (hexchar d) = Some d.
Proof. intros d H. unfold hexchar, hexdigit, is_digit. destruct (N.ltb_spec d 10) as [L|L]; [replace ((48 <=? 48 + d) && (48 + d <=? 57))%N with true by lia; f_equal; lia|]. replace ((48 <=? 87 + d) && (87 + d <=? 57))%N with false by lia. replace ((97 <=? 87 + d) && (87 + d <=? 102))%N with true by lia. f_equal. lia. Qed.
Lemma hexval_chars : forall ds acc, Forall (fun d => (d < 16)%N) ds -> hexval acc (map hexchar ds) = Some (fold_left (fun v d => (16 * v + d)%N) ds acc).
Proof. intros ds acc F. revert acc. induction F as [|d ds Hd F IH]; intros acc; [reflexivity|]. cbn [map hexval fold_left]. rewrite hexdigit_char by exact Hd. apply IH. Qed.
Theorem decode_hex : forall wordc n2cp ds x s, word_class wordc -> x = 120%N \/ x = 88%N -> Forall (fun d => (d < 16)%N) ds -> 1 <= length ds <= 8 -> (value16 ds <= 1114111)%N ->
  decode_htmlentities wordc n2cp (str "&#" ++ [x] ++ map hexchar ds ++ str ";" ++ s) = value16 ds :: decode_htmlentities wordc n2cp s.
Proof.
  intros wordc n2cp ds x s Wc Hx F L Hv. change (str "&#" ++ [x] ++ map hexchar ds ++ str ";" ++ s) with (38%N :: [35%N] ++ [x] ++ map hexchar ds ++ 59%N :: s).
  assert (Fc : Forall (fun c => is_digit c = true \/ letter c = true) (map hexchar ds)) by (apply Forall_map; eapply Forall_impl; [|exact F]; cbv beta; intros d Hd; unfold hexchar, is_digit, letter; destruct (N.ltb_spec d 10); lia).
  rewrite decode_entity.
  - unfold substitute_entity. cbn [nth nonempty]. unfold int16.
    assert (B : forall body : pystr, body = map hexchar ds -> (if forallb nonempty (split_on 95%N body) then hexval 0 (concat (split_on 95%N body)) else None) = Some (value16 ds)).
    { intros body ->. rewrite split_on_word by (intros H; apply in_map_iff in H; destruct H as (d & E & Hd); rewrite Forall_forall in F; specialize (F d Hd); cbv beta in F; unfold hexchar in E; destruct (N.ltb_spec d 10); lia). cbn [forallb concat]. rewrite app_nil_r. destruct ds as [|d ds]; [cbn in L; lia|]. cbn [map nonempty andb]. exact (hexval_chars (d :: ds) 0%N F). }
    rewrite B; [unfold safe_unichr; replace (value16 ds <=? 1114111)%N with true by lia; reflexivity|].
    destruct ds as [|d [|e ds]]; [reflexivity | reflexivity|]. cbn [map]. assert (Q : (is 120 (hexchar e) || is 88 (hexchar e))%N = false).
    { inversion F as [|? ? _ F']; subst. inversion F' as [|? ? He _]; subst. unfold is, hexchar. destruct (N.ltb_spec e 10); lia. }
    rewrite Q, andb_false_r. reflexivity.
  - exact Wc.
  - right. reflexivity.
  - destruct Hx as [-> | ->]; auto.
  - eapply Forall_impl; [|exact Fc]. cbv beta. intros c Hc. apply Wc. exact Hc.
  - rewrite map_length. exact L.
Qed.
Print Assumptions decode_hex.

(** ** Named characters: known names are decoded unless they begin with an x *)
Theorem decode_name : forall wordc n2cp w s, word_class wordc -> Forall (fun c => wordc c = true) w -> 1 <= length w <= 8 -> starts is_x w = false ->
  decode_htmlentities wordc n2cp (str "&" ++ w ++ str ";" ++ s) =
    (match n2cp w with Some cp => if ((0 <? cp) && (cp <=? 1114111))%N then [cp] else str "&" ++ w ++ str ";" | None => str "&" ++ w ++ str ";" end) ++ decode_htmlentities wordc n2cp s.
Proof.
  intros wordc n2cp w s Wc F L Nx. change (str "&" ++ w ++ str ";" ++ s) with (38%N :: [] ++ [] ++ w ++ 59%N :: s). rewrite decode_entity; auto. f_equal. unfold substitute_entity. cbn [nth nonempty concat app]. destruct (n2cp w) as [cp|]; [|reflexivity]. unfold safe_unichr. destruct (N.eqb_spec cp 0) as [->|Ne]; [reflexivity|]. replace (0 <? cp)%N with true by lia. cbn [andb]. destruct (cp <=? 1114111)%N; reflexivity.
Qed.
Print Assumptions decode_name.
(** The names of the Greek letters xi and Xi: the first letter is taken for the mark of a hexadecimal number, so the entity stays. *)
Theorem decode_xi_refuted : forall wordc n2cp s, word_class wordc -> n2cp (str "i") = None ->
  decode_htmlentities wordc n2cp (str "&xi;" ++ s) = str "&xi;" ++ decode_htmlentities wordc n2cp s /\
  decode_htmlentities wordc n2cp (str "&Xi;" ++ s) = str "&Xi;" ++ decode_htmlentities wordc n2cp s.
Proof.
  intros wordc n2cp s Wc Hi. assert (Wi : Forall (fun c => wordc c = true) (str "i")) by (repeat constructor; apply Wc; right; reflexivity). split.
  - change (str "&xi;" ++ s) with (38%N :: [] ++ [120%N] ++ str "i" ++ 59%N :: s). rewrite decode_entity; auto; [|cbn; lia]. unfold substitute_entity. cbn [nth nonempty]. rewrite Hi. reflexivity.
  - change (str "&Xi;" ++ s) with (38%N :: [] ++ [88%N] ++ str "i" ++ 59%N :: s). rewrite decode_entity; auto; [|cbn; lia]. unfold substitute_entity. cbn [nth nonempty]. rewrite Hi. reflexivity.
Qed.
Print Assumptions decode_xi_refuted.

(** ** Round trip: decoding undoes [html.escape], for all texts (also such that contain entities). *)
Definition escape_char (c : N) : pystr :=
  if (c =? 38)%N then str "&amp;" else if (c =? 60)%N then str "&lt;" else if (c =? 62)%N then str "&gt;" else if (c =? 34)%N then str "&quot;" else if (c =? 39)%N then str "&#x27;" else [c].
Definition escape (s : pystr) : pystr := concat (map escape_char s).
Theorem decode_escape : forall wordc n2cp s, word_class wordc ->
  n2cp (str "amp") = Some 38%N -> n2cp (str "lt") = Some 60%N -> n2cp (str "gt") = Some 62%N -> n2cp (str "quot") = Some 34%N ->
  decode_htmlentities wordc n2cp (escape s) = s.
Proof.
  intros wordc n2cp s Wc Ha Hl Hg Hq. induction s as [|c s IH]; [reflexivity|]. unfold escape in *. cbn [map concat]. set (r := concat (map escape_char s)) in *.
  assert (Nm : forall w cp, n2cp w = Some cp -> Forall (fun c => letter c = true) w -> 1 <= length w <= 8 -> starts is_x w = false -> ((0 <? cp) && (cp <=? 1114111))%N = true -> decode_htmlentities wordc n2cp (str "&" ++ w ++ str ";" ++ r) = cp :: s).
  { intros w cp E F L Nx B. rewrite decode_name; auto; [|eapply Forall_impl; [|exact F]; cbv beta; intros d Hd; apply Wc; right; exact Hd]. rewrite E, B, IH. reflexivity. }
  unfold escape_char. destruct (N.eqb_spec c 38) as [->|N1]; [apply (Nm (str "amp") 38%N Ha); [repeat constructor | cbn; lia | reflexivity | reflexivity]|].
  destruct (N.eqb_spec c 60) as [->|N2]; [apply (Nm (str "lt") 60%N Hl); [repeat constructor | cbn; lia | reflexivity | reflexivity]|].
  destruct (N.eqb_spec c 62) as [->|N3]; [apply (Nm (str "gt") 62%N Hg); [repeat constructor | cbn; lia | reflexivity | reflexivity]|].
  destruct (N.eqb_spec c 34) as [->|N4]; [apply (Nm (str "quot") 34%N Hq); [repeat constructor | cbn; lia | reflexivity | reflexivity]|].
  destruct (N.eqb_spec c 39) as [->|N5].
  - pose proof (decode_hex wordc n2cp [2%N; 7%N] 120%N r Wc (or_introl eq_refl) ltac:(repeat constructor) ltac:(cbn; lia) ltac:(vm_compute; discriminate)) as E. change (str "&#" ++ [120%N] ++ map hexchar [2%N; 7%N] ++ str ";" ++ r) with (str "&#x27;" ++ r) in E. rewrite E, IH. reflexivity.
  - cbn [app]. unfold decode_htmlentities in *. rewrite not_amp by exact N1. f_equal. exact IH.
Qed.
Print Assumptions decode_escape.
Definition some_names (w : pystr) : option N :=
  if eqb w (str "amp") then Some 38%N else if eqb w (str "lt") then Some 60%N else if eqb w (str "gt") then Some 62%N else if eqb w (str "quot") then Some 34%N else if eqb w (str "xi") then Some 958%N else None.
Example decode_ex :
  decode_htmlentities ascii_word some_names (str "L&#x27;aldil&#xE0; (1981) l&#39;eau foo &lt; bar") = str "L'aldil" ++ [224%N] ++ str " (1981) l'eau foo < bar" /\
  decode_htmlentities ascii_word some_names (str "&amp;lt; &nope; &#xyz; &#99999999; & &; &xi;") = str "&lt; &nope; &#xyz; &#99999999; & &; &xi;" /\
  escape (str "a<&lt;'") = str "a&lt;&amp;lt;&#x27;" /\ decode_htmlentities ascii_word some_names (escape (str "a<&lt;'")) = str "a<&lt;'".
Proof. repeat split; vm_compute; reflexivity. Qed.
Example ascii_word_class : word_class ascii_word.
Proof. split; [|split; reflexivity]. intros c [H|H]; unfold ascii_word; rewrite H; rewrite ?orb_true_r; reflexivity. Qed.
