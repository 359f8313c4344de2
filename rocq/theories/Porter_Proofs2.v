(** The steps of the stemmer. *)
From Verif Require Import Base Str Porter_Model Porter_Spec Porter_Proofs.
From Coq Require Import ZifyBool ZifyNat ZifyN.
Local Open Scope nat_scope.

Lemma chop_end : forall t d v c, d <> c -> chop (t ++ [d]) (v ++ [c]) = None.
Proof. intros t d v c H. destruct (chop _ _) as [u|] eqn:E; [|reflexivity]. apply chop_some in E. rewrite app_assoc in E. apply app_inj_tail in E. destruct E as [_ E]. congruence. Qed.
Lemma chop_app : forall u s, chop s (u ++ s) = Some u.
Proof. intros. now apply chop_some. Qed.
Lemma pylen_app : forall u v, (pylen (u ++ v) = pylen u + pylen v)%Z.
Proof. intros. unfold pylen. rewrite app_length. lia. Qed.
Lemma pyget_last : forall y d, pyget (y ++ [d]) (-1) = Ok d.
Proof.
  intros y d. unfold pyget. change (-1 <? 0)%Z with true. cbv iota. rewrite pylen_app. change (pylen [d]) with 1%Z. replace (-1 + (pylen y + 1))%Z with (pylen y) by lia. unfold pylen.
  destruct (Z.ltb_spec (Z.of_nat (length y)) 0); [lia|]. rewrite Nat2Z.id, nth_error_app2, Nat.sub_diag by lia. reflexivity.
Qed.
(** Two suffixes of a word: one is a suffix of the other. *)
Lemma chop_both : forall s t w u v, chop s w = Some u -> chop t w = Some v -> chop s t <> None \/ chop t s <> None.
Proof.
  intros s t w u v A B. apply chop_some in A. apply chop_some in B. rewrite A in B. clear A.
  assert (Lv : length u + length s = length v + length t) by (apply (f_equal (@length _)) in B; rewrite !app_length in B; exact B).
  assert (L : length s <= length t \/ length t <= length s) by lia. destruct L as [L|L]; [left|right]; intros C.
  - assert (X : t = firstn (length t - length s) t ++ s).
    { rewrite <- (firstn_skipn (length t - length s) t) at 1. f_equal. apply (f_equal (skipn (length u))) in B. rewrite skipn_app, skipn_all, Nat.sub_diag in B. cbn [app skipn] in B. rewrite skipn_app in B.
      transitivity (skipn (length u) v ++ skipn (length u - length v) t); [|symmetry; exact B]. rewrite (skipn_all2 v) by lia. cbn [app]. f_equal. lia. }
    exact (chop_none _ _ C _ X).
  - assert (X : s = firstn (length s - length t) s ++ t).
    { rewrite <- (firstn_skipn (length s - length t) s) at 1. f_equal. symmetry in B. apply (f_equal (skipn (length v))) in B. rewrite skipn_app, skipn_all, Nat.sub_diag in B. cbn [app skipn] in B. rewrite skipn_app in B.
      transitivity (skipn (length v) u ++ skipn (length v - length u) s); [|symmetry; exact B]. rewrite (skipn_all2 u) by lia. cbn [app]. f_equal. lia. }
    exact (chop_none _ _ C _ X).
Qed.
Lemma chop_clash : forall s t w u, chop s w = Some u -> chop s t = None -> chop t s = None -> chop t w = None.
Proof. intros s t w u A B C. destruct (chop t w) as [v|] eqn:E; [|reflexivity]. destruct (chop_both _ _ _ _ _ A E); congruence. Qed.
Lemma chop_longer : forall s t w, chop s w = None -> chop s t <> None -> chop t w = None.
Proof.
  intros s t w A B. destruct (chop t w) as [v|] eqn:E; [|reflexivity]. apply chop_some in E. destruct (chop s t) as [x|] eqn:F; [|congruence]. apply chop_some in F. subst. exfalso. apply (chop_none _ _ A (v ++ x)). now rewrite app_assoc.
Qed.
Lemma measure_nil : measure [] = 0.
Proof. reflexivity. Qed.
Lemma pos_measure : forall u, 0 < measure u -> u <> [].
Proof. intros u H ->. cbn in H. lia. Qed.

Section Steps.
Variable depth : nat.
Hypothesis Hd : 0 < depth.
Notation holds := (holds depth).

Lemma holds_to : forall st u v k j, holds st (u ++ v) -> u <> [] -> k = (pylen u - 1)%Z -> holds (mkP (pb st) k j) u.
Proof. intros st u v k j H Hu ->. exact (holds_prefix depth st u v H Hu j). Qed.

Ltac ends_chop H := match type of H with Porter_Proofs.holds _ ?st _ => match goal with |- context [ends ?s st] => rewrite (ends_ok depth s st _ ltac:(discriminate) H) end end.
Definition plural (st : pstate) : result pstate :=
  let* c := pyget (pb st) (pk st) in
    if N.eqb c 115 then
      let* es := ends (str "sses") st in if fst es then Ok (set_k (snd es) (pk (snd es) - 2)) else
      let* es := ends (str "ies") (snd es) in if fst es then Ok (setto (str "i") (snd es)) else
      let st := snd es in
      let* c' := pyget (pb st) (pk st - 1) in
      Ok (if N.eqb c' 115 then st else set_k st (pk st - 1))
    else Ok st.
Lemma plural_ok : forall st w, holds st w -> 2 <= length w -> exists st', plural st = Ok st' /\ holds st' (rule1a w).
Proof.
  intros st w H L. pose proof (holds_k depth _ _ H) as K. destruct (snoc_or_nil w) as [->|(v & c & ->)]; [cbn in L; lia|].
  destruct (snoc_or_nil v) as [->|(x & c' & ->)]; [cbn in L; lia|]. unfold plural.
  assert (Gk : pyget (pb st) (pk st) = Ok c). { rewrite K. rewrite pylen_app. change (pylen [c]) with 1%Z. replace (pylen (x ++ [c']) + 1 - 1)%Z with (pylen (x ++ [c'])) by lia. exact (get_holds depth _ _ _ _ H). }
  rewrite Gk. cbn [rbind]. unfold rule1a. destruct (N.eqb_spec c 115) as [->|Nc].
  - ends_chop H. destruct (chop (str "sses") ((x ++ [c']) ++ [115%N])) as [u|] eqn:E1; cbn [rbind fst snd].
    + apply chop_some in E1. eexists. split; [reflexivity|]. change (str "sses") with (str "ss" ++ str "es") in E1. rewrite app_assoc in E1. rewrite E1 in H. unfold set_k, set_j. cbn [pb pk pj].
      apply (holds_to _ _ _ _ _ H); [destruct u; discriminate|]. rewrite K, E1, (pylen_app (u ++ str "ss")). change (pylen (str "es")) with 2%Z. lia.
    + ends_chop H. destruct (chop (str "ies") ((x ++ [c']) ++ [115%N])) as [u|] eqn:E2; cbn [rbind fst snd].
      * apply chop_some in E2. eexists. split; [reflexivity|]. rewrite E2 in H. apply (holds_setto depth _ u (str "ies")); [apply holds_j; exact H | reflexivity | reflexivity | destruct u; discriminate | exact Hd].
      * assert (Gk1 : pyget (pb st) (pk st - 1) = Ok c'). { rewrite K. rewrite !pylen_app. change (pylen [c']) with 1%Z. change (pylen [115%N]) with 1%Z. replace (pylen x + 1 + 1 - 1 - 1)%Z with (pylen x) by lia. apply (get_holds depth _ _ _ [115%N]). rewrite <- app_assoc in H. exact H. }
        rewrite Gk1. cbn [rbind]. eexists. split; [reflexivity|]. change (str "s") with [115%N]. rewrite chop_app. destruct (N.eqb_spec c' 115) as [->|Nc'].
        -- change (str "ss") with [115%N; 115%N]. rewrite <- app_assoc. cbn [app]. rewrite chop_app. rewrite <- app_assoc in H. exact H.
        -- destruct (chop (str "ss") ((x ++ [c']) ++ [115%N])) as [u|] eqn:E3; [exfalso; apply chop_some in E3; change (str "ss") with ([115%N] ++ [115%N]) in E3; rewrite app_assoc in E3; apply app_inj_tail in E3; destruct E3 as [E3 _]; apply app_inj_tail in E3; destruct E3; congruence|].
           unfold set_k. apply (holds_to _ _ _ _ _ H); [destruct x; discriminate|]. rewrite K, (pylen_app (x ++ [c'])). change (pylen [115%N]) with 1%Z. lia.
  - eexists. split; [reflexivity|]. change (str "sses") with (str "sse" ++ [115%N]). change (str "ies") with (str "ie" ++ [115%N]). change (str "ss") with (str "s" ++ [115%N]). change (str "s") with ([] ++ [115%N]).
    rewrite !chop_end by congruence. exact H.
Qed.

Lemma app_last_eq : forall (u : pystr), u <> [] -> exists v c, u = v ++ [c].
Proof. intros u H. destruct (snoc_or_nil u) as [->|X]; [congruence | exact X]. Qed.
Lemma double_shape : forall u, double_cons u = true -> exists x c, u = x ++ [c; c].
Proof.
  intros u H. unfold double_cons in H. destruct (rev u) as [|a [|b l]] eqn:E; try (destruct (rev (shape u)) as [|[] ?]; discriminate).
  destruct (rev (shape u)) as [|[] ?]; try discriminate. apply N.eqb_eq in H. subst b. exists (rev l), a. rewrite <- (rev_involutive u), E. cbn. rewrite <- app_assoc. reflexivity.
Qed.
Definition mending (st : pstate) : result pstate :=
    let* es := ends (str "at") st in if fst es then Ok (setto (str "ate") (snd es)) else
    let* es := ends (str "bl") (snd es) in if fst es then Ok (setto (str "ble") (snd es)) else
    let* es := ends (str "iz") (snd es) in if fst es then Ok (setto (str "ize") (snd es)) else
    let st := snd es in
    let* d := doublec depth (pb st) (pk st) in
    if d then let* c := pyget (pb st) (pk st - 1) in Ok (if ch_in c (str "lsz") then st else set_k st (pk st - 1))
    else
      let* m := measure_ depth st in
      if (m =? 1)%Z then let* c := cvc depth (pb st) (pk st) in Ok (if c then setto (str "e") st else st) else Ok st.
Lemma setto_e : forall st u s, holds st (u ++ s) -> no_y s = true -> holds (setto (s ++ str "e") (set_j st (pylen u - 1))) ((u ++ s) ++ str "e").
Proof.
  intros st u s H Y. rewrite <- app_assoc. apply (holds_setto depth _ u s); [apply holds_j; exact H | reflexivity | unfold no_y in *; rewrite forallb_app, Y; reflexivity | destruct u; [destruct s; discriminate | discriminate] | exact Hd].
Qed.
Lemma mending_ok : forall st u, holds st u -> pj st = (pylen u - 1)%Z -> exists st', mending st = Ok st' /\ holds st' (mend u).
Proof.
  intros st u H J. pose proof (holds_k depth _ _ H) as K. unfold mending, mend. ends_chop H. destruct (chop (str "at") u) as [x|] eqn:E1; cbn [rbind fst snd].
  { apply chop_some in E1. subst u. eexists. split; [reflexivity|]. apply (setto_e st x (str "at") H eq_refl). }
  ends_chop H. destruct (chop (str "bl") u) as [x|] eqn:E2; cbn [rbind fst snd].
  { apply chop_some in E2. subst u. eexists. split; [reflexivity|]. apply (setto_e st x (str "bl") H eq_refl). }
  ends_chop H. destruct (chop (str "iz") u) as [x|] eqn:E3; cbn [rbind fst snd].
  { apply chop_some in E3. subst u. eexists. split; [reflexivity|]. apply (setto_e st x (str "iz") H eq_refl). }
  assert (H0 : holds st (u ++ [])) by (rewrite app_nil_r; exact H). assert (Nu : u <> []) by apply H.
  rewrite K, (doublec_holds depth st u [] H0 Nu). cbn [rbind]. destruct (double_cons u) eqn:D.
  - destruct (double_shape u D) as (x & c & ->). assert (Gk : pyget (pb st) (pylen (x ++ [c; c]) - 1 - 1) = Ok c). { rewrite pylen_app. change (pylen [c; c]) with 2%Z. replace (pylen x + 2 - 1 - 1)%Z with (pylen x) by lia. exact (get_holds depth _ _ _ _ H). }
    rewrite Gk. cbn [rbind]. eexists. split; [reflexivity|]. change (x ++ [c; c]) with (x ++ [c] ++ [c]). rewrite app_assoc. rewrite last_snoc, removelast_last. change (ch_in c (str "lsz")) with (existsb (N.eqb c) (str "lsz")).
    destruct (existsb (N.eqb c) (str "lsz")); [rewrite <- app_assoc; exact H|]. unfold set_k. change (x ++ [c; c]) with (x ++ [c] ++ [c]) in H. rewrite app_assoc in H. apply (holds_to _ _ _ _ _ H); [destruct x; discriminate|]. rewrite (pylen_app (x ++ [c])). change (pylen [c]) with 1%Z. lia.
  - rewrite (measure_holds depth st u [] H0 J). cbn [rbind]. destruct (Nat.eqb_spec (measure u) 1) as [M|M].
    + rewrite M. cbn [Z.of_nat Z.eqb Pos.eqb andb]. change (Z.of_nat 1 =? 1)%Z with true. cbv iota. rewrite (cvc_holds depth st u [] H0). cbn [rbind]. eexists. split; [reflexivity|]. destruct (short_end u); [|exact H].
      apply (holds_setto depth st u []); [exact H0 | exact J | reflexivity | destruct u; discriminate | exact Hd].
    + destruct (Z.eqb_spec (Z.of_nat (measure u)) 1); [lia|]. cbn [andb]. eexists. split; [reflexivity | exact H].
Qed.
Lemma has_vowel_ne : forall u, has_vowel u = true -> u <> [].
Proof. intros u H ->. discriminate. Qed.
Definition past (st : pstate) : result pstate :=
    let* es := ends (str "eed") st in
    if fst es then let st := snd es in let* m := measure_ depth st in Ok (if (0 <? m)%Z then set_k st (pk st - 1) else st)
    else
      let* es := ends (str "ed") (snd es) in
      let* es := if fst es then Ok es else ends (str "ing") (snd es) in
      let st := snd es in
      if negb (fst es) then Ok st else
      let* v := vowelinstem depth st in
      if negb v then Ok st else mending (set_k st (pj st)).
Lemma past_ok : forall st w, holds st w -> exists st', past st = Ok st' /\ holds st' (rule1b w).
Proof.
  intros st w H. pose proof (holds_k depth _ _ H) as K. unfold past, rule1b. ends_chop H. destruct (chop (str "eed") w) as [u|] eqn:E1; cbn [rbind fst snd].
  { apply chop_some in E1. subst w. rewrite (measure_holds depth (set_j st (pylen u - 1)) u (str "eed") H eq_refl). cbn [rbind]. eexists. split; [reflexivity|].
    destruct (Nat.ltb_spec 0 (measure u)) as [M|M]; destruct (Z.ltb_spec 0 (Z.of_nat (measure u))); try lia; [|exact H].
    change (str "eed") with (str "ee" ++ str "d") in H, K. rewrite app_assoc in H, K. unfold set_k, set_j. cbn [pb pk pj]. apply (holds_to _ _ _ _ _ H); [destruct u; discriminate|]. rewrite K, (pylen_app (u ++ str "ee")). change (pylen (str "d")) with 1%Z. lia. }
  assert (M : forall s u, w = u ++ s -> exists st', (let st0 := set_j st (pylen u - 1) in let* v := vowelinstem depth st0 in if negb v then Ok st0 else mending (set_k st0 (pj st0))) = Ok st' /\ holds st' (if has_vowel u then mend u else w)).
  { intros s u ->. cbv zeta. rewrite (vowel_holds depth (set_j st (pylen u - 1)) u s H eq_refl). cbn [rbind]. destruct (has_vowel u) eqn:V; cbn [negb]; [|eexists; split; [reflexivity | exact H]].
    apply mending_ok; [|reflexivity]. unfold set_k, set_j. cbn [pb pk pj]. apply (holds_to _ _ s _ _ H); [apply has_vowel_ne; exact V | reflexivity]. }
  ends_chop H. destruct (chop (str "ed") w) as [u|] eqn:E2; cbn [rbind fst snd].
  { apply chop_some in E2. cbn [negb]. exact (M _ _ E2). }
  ends_chop H. destruct (chop (str "ing") w) as [u|] eqn:E3; cbn [rbind fst snd negb].
  { apply chop_some in E3. exact (M _ _ E3). }
  eexists. split; [reflexivity | exact H].
Qed.
Lemma step1ab_ok : forall st w, holds st w -> 2 <= length w -> exists st', step1ab depth st = Ok st' /\ holds st' (rule1b (rule1a w)).
Proof.
  intros st w H L. destruct (plural_ok st w H L) as (s1 & E1 & H1). destruct (past_ok s1 _ H1) as (s2 & E2 & H2). exists s2. split; [|exact H2].
  assert (E : step1ab depth st = let* st := plural st in past st) by (unfold step1ab, plural; destruct (pyget (pb st) (pk st)); reflexivity).
  rewrite E, E1. exact E2.
Qed.
Lemma step1c_ok : forall st w, holds st w -> exists st', step1c depth st = Ok st' /\ holds st' (rule1c w).
Proof.
  intros st w H. pose proof (holds_k depth _ _ H) as K. unfold step1c, rule1c. ends_chop H. destruct (chop (str "y") w) as [u|] eqn:E1; cbn [rbind fst snd]; [|eexists; split; [reflexivity | exact H]].
  apply chop_some in E1. subst w. rewrite (vowel_holds depth (set_j st (pylen u - 1)) u (str "y") H eq_refl). cbn [rbind]. eexists. split; [reflexivity|]. destruct (has_vowel u); [|exact H].
  destruct H as (Ne & rest & Eb & Ek & B). unfold set_j. cbn [pb pk pj]. rewrite Ek, pylen_app. change (pylen (str "y")) with 1%Z. replace (pylen u + 1 - 1)%Z with (pylen u) by lia. rewrite Eb, <- app_assoc, pyprefix_app. split; [destruct u; discriminate|].
  exists []. cbn [pb pk]. rewrite app_nil_r. split; [reflexivity|]. split; [rewrite pylen_app; change (pylen (str "i")) with 1%Z; lia|]. apply runs_below_app; [exact Hd | | reflexivity]. rewrite Eb, <- app_assoc in B. exact (runs_below_prefix _ _ _ B).
Qed.

(** ** Tables *)
Definition rules_fine (rules : list (pystr * pystr)) : Prop := Forall (fun sr => fst sr <> [] /\ no_y (snd sr) = true) rules.
Lemma r_ok : forall st u s r, holds st (u ++ s) -> pj st = (pylen u - 1)%Z -> no_y r = true -> exists st', r_ depth r st = Ok st' /\ holds st' (if 0 <? measure u then u ++ r else u ++ s).
Proof.
  intros st u s r H J Y. unfold r_. rewrite (measure_holds depth st u s H J). cbn [rbind]. eexists. split; [reflexivity|]. destruct (Nat.ltb_spec 0 (measure u)) as [M|M]; destruct (Z.ltb_spec 0 (Z.of_nat (measure u))); try lia; [|exact H].
  apply (holds_setto depth st u s); [exact H | exact J | exact Y | | exact Hd]. apply pos_measure in M. destruct u; [congruence | discriminate].
Qed.
Lemma first_rule_ok : forall rules st w, rules_fine rules -> holds st w -> exists st', first_rule depth rules st = Ok st' /\ holds st' (rewrite_rule rules w).
Proof.
  induction rules as [|[s r] rules IH]; intros st w F H; cbn [first_rule]; [eexists; split; [reflexivity | exact H]|]. inversion F as [|? ? [F1 F2] F3]; subst. cbn [fst snd] in *.
  rewrite (ends_ok depth _ _ _ F1 H). unfold rewrite_rule. cbn [first_match]. destruct (chop s w) as [u|] eqn:E; cbn [rbind fst snd].
  - apply chop_some in E. subst w. apply (r_ok (set_j st (pylen u - 1)) u s r H eq_refl F2).
  - exact (IH st w F3 H).
Qed.
(** The letter that chooses the rules: the one at place [p] from the end. *)
Definition classed (p : nat) (table : list (N * list (pystr * pystr))) : Prop :=
  NoDup (map fst table) /\ Forall (fun cr => Forall (fun sr => nth_error (rev (fst sr)) p = Some (fst cr)) (snd cr)) table.
Lemma chop_letter : forall p s w u c, chop s w = Some u -> nth_error (rev s) p = Some c -> nth_error (rev w) p = Some c.
Proof. intros p s w u c E H. apply chop_some in E. subst w. rewrite rev_app_distr. rewrite nth_error_app1; [exact H|]. apply nth_error_Some. congruence. Qed.
Lemma no_match : forall p (rules : list (pystr * pystr)) c w, Forall (fun sr => nth_error (rev (fst sr)) p = Some c) rules -> nth_error (rev w) p <> Some c -> Forall (fun sr => chop (fst sr) w = None) rules.
Proof.
  intros p rules c w F H. eapply Forall_impl; [|exact F]. intros [s r] E. cbn [fst] in *. destruct (chop s w) as [u|] eqn:C; [|reflexivity]. exfalso. apply H. exact (chop_letter _ _ _ _ _ C E).
Qed.
Lemma by_letter_split : forall p table ch w, classed p table -> (nth_error (rev w) p = Some ch \/ nth_error (rev w) p = None) ->
  (exists a b, concat (map snd table) = a ++ by_letter ch table ++ b /\ Forall (fun sr => chop (fst sr) w = None) a /\ Forall (fun sr => chop (fst sr) w = None) b).
Proof.
  intros p table ch w [Nd F] H. induction table as [|[c rules] table IH]; cbn [map concat by_letter fst snd] in *; [exists [], []; auto|].
  inversion Nd as [|? ? N1 N2]; subst. inversion F as [|? ? F1 F2]; subst. cbn [fst snd] in *. destruct (N.eqb_spec ch c) as [->|Ne].
  - exists [], (concat (map snd table)). split; [reflexivity|]. split; [constructor|]. clear IH N2 Nd F. induction table as [|[c' rules'] table IH]; cbn [map concat snd]; [constructor|]. inversion F2 as [|? ? G1 G2]; subst. cbn [fst snd map] in *. apply Forall_app. split.
    + apply (no_match p rules' c'); [exact G1|]. destruct H as [H|H]; rewrite H; [|discriminate]. intros X. injection X as ->. apply N1. left. reflexivity.
    + apply IH; [intros X; apply N1; right; exact X | exact G2].
  - destruct (IH N2 F2) as (a & b & E & A & B). exists (rules ++ a), b. rewrite E, <- app_assoc. split; [reflexivity|]. split; [|exact B]. apply Forall_app. split; [|exact A].
    apply (no_match p rules c); [exact F1|]. destruct H as [H|H]; rewrite H; congruence.
Qed.
Lemma first_match_skip : forall a rules w, Forall (fun sr => chop (fst sr) w = None) a -> first_match (a ++ rules) w = first_match rules w.
Proof. intros a rules w F. induction F as [|[s r] a E F IH]; [reflexivity|]. cbn [app first_match fst] in *. rewrite E. exact IH. Qed.
Lemma first_match_none : forall rules w, Forall (fun sr => chop (fst sr) w = None) rules -> first_match rules w = None.
Proof. intros rules w F. induction F as [|[s r] a E F IH]; [reflexivity|]. cbn [first_match fst] in *. rewrite E. exact IH. Qed.
Lemma first_match_app : forall a b w, Forall (fun sr => chop (fst sr) w = None) b -> first_match (a ++ b) w = first_match a w.
Proof. intros a b w F. induction a as [|[s r] a IH]; cbn [app first_match]; [apply first_match_none; exact F|]. destruct (chop s w); [reflexivity | exact IH]. Qed.
Lemma by_letter_match : forall p table ch w, classed p table -> (nth_error (rev w) p = Some ch \/ nth_error (rev w) p = None) -> first_match (by_letter ch table) w = first_match (concat (map snd table)) w.
Proof. intros p table ch w C H. destruct (by_letter_split p table ch w C H) as (a & b & E & A & B). rewrite E, first_match_skip by exact A. symmetry. apply first_match_app. exact B. Qed.
Lemma by_letter_fine : forall table ch, Forall (fun cr => rules_fine (snd cr)) table -> rules_fine (by_letter ch table).
Proof. intros table ch F. induction F as [|[c r] table H F IH]; cbn [by_letter]; [constructor|]. destruct (N.eqb ch c); [exact H | exact IH]. Qed.

Ltac classed_tac := split; [repeat constructor; cbn; intuition discriminate | repeat constructor].
Lemma classed2 : classed 1 table2. Proof. classed_tac. Qed.
Lemma classed3 : classed 0 table3. Proof. classed_tac. Qed.
Lemma classed4 : classed 1 table4. Proof. classed_tac. Qed.
Lemma fine2 : Forall (fun cr => rules_fine (snd cr)) table2.
Proof. unfold rules_fine. repeat (constructor || split); cbn; discriminate. Qed.
Lemma fine3 : Forall (fun cr => rules_fine (snd cr)) table3.
Proof. unfold rules_fine. repeat (constructor || split); cbn; discriminate. Qed.
(** The last letter but one; any letter of the buffer for a word of one letter. *)
Lemma penult : forall st w, holds st w -> exists ch, pyget (pb st) (pk st - 1) = Ok ch /\ (nth_error (rev w) 1 = Some ch \/ nth_error (rev w) 1 = None).
Proof.
  intros st w H. pose proof (holds_k depth _ _ H) as K. assert (Ne : w <> []) by apply H. destruct (app_last_eq w Ne) as (v & c & ->). destruct (snoc_or_nil v) as [->|(x & c' & ->)].
  - destruct H as (_ & rest & Eb & _ & _). cbn in K. rewrite K. assert (Nb : pb st <> []) by (rewrite Eb; discriminate). destruct (app_last_eq _ Nb) as (y & d & E). exists d. split; [|right; reflexivity]. rewrite E. apply pyget_last.
  - exists c'. rewrite K, !pylen_app. change (pylen [c']) with 1%Z. change (pylen [c]) with 1%Z. replace (pylen x + 1 + 1 - 1 - 1)%Z with (pylen x) by lia. rewrite <- app_assoc in H. rewrite (get_holds depth st x c' [c] H). split; [reflexivity|]. left. rewrite !rev_app_distr. reflexivity.
Qed.
Lemma final : forall st v c, holds st (v ++ [c]) -> pyget (pb st) (pk st) = Ok c.
Proof. intros st v c H. rewrite (holds_k depth _ _ H), pylen_app. change (pylen [c]) with 1%Z. replace (pylen v + 1 - 1)%Z with (pylen v) by lia. exact (get_holds depth _ _ _ _ H). Qed.
Lemma step2_ok : forall st w, holds st w -> exists st', step2 depth st = Ok st' /\ holds st' (rewrite_rule rules2 w).
Proof.
  intros st w H. destruct (penult st w H) as (ch & G & P). unfold step2. rewrite G. cbn [rbind]. destruct (first_rule_ok (by_letter ch table2) st w (by_letter_fine _ _ fine2) H) as (st' & E & H'). exists st'. split; [exact E|].
  unfold rewrite_rule in *. rewrite (by_letter_match 1 table2 ch w classed2 P) in H'. exact H'.
Qed.
Lemma step3_ok : forall st w, holds st w -> exists st', step3 depth st = Ok st' /\ holds st' (rewrite_rule rules3 w).
Proof.
  intros st w H. assert (Ne : w <> []) by apply H. destruct (app_last_eq w Ne) as (v & c & ->). unfold step3. rewrite (final st v c H). cbn [rbind].
  destruct (first_rule_ok (by_letter c table3) st (v ++ [c]) (by_letter_fine _ _ fine3) H) as (st' & E & H'). exists st'. split; [exact E|].
  unfold rewrite_rule in *. rewrite (by_letter_match 0 table3 c (v ++ [c]) classed3) in H'; [exact H'|]. left. rewrite rev_app_distr. reflexivity.
Qed.

(** ** Step 4 *)
Fixpoint drop_rule (rules : list (pystr * pystr)) (w : pystr) : pystr :=
  match rules with
  | [] => w
  | (s, before) :: rules' =>
    match chop s w with
    | Some u => if match before with [] => true | _ => existsb (N.eqb (last u 0%N)) before end then (if 1 <? measure u then u else w) else drop_rule rules' w
    | None => drop_rule rules' w
    end
  end.
Fixpoint side (rules : list (pystr * pystr)) : Prop :=
  match rules with
  | [] => True
  | (s, before) :: rules' => s <> [] /\ match before with [] => True | _ => drop_rule rules' s = s end /\ side rules'
  end.
Lemma any_rule_ok : forall rules st w, side rules -> holds st w ->
  exists st', (let* es := any_rule rules st in let st := snd es in if fst es then let* m := measure_ depth st in Ok (if (1 <? m)%Z then set_k st (pj st) else st) else Ok st) = Ok st' /\ holds st' (drop_rule rules w).
Proof.
  induction rules as [|[s before] rules IH]; intros st w Sd H; cbn [any_rule drop_rule].
  - cbn [rbind fst snd]. eexists. split; [reflexivity | exact H].
  - destruct Sd as (S1 & S2 & S3). rewrite (ends_ok depth _ _ _ S1 H). destruct (chop s w) as [u|] eqn:E; cbn [rbind fst snd]; [|exact (IH st w S3 H)].
    apply chop_some in E. subst w.
    assert (Take : exists st', (let* m := measure_ depth (set_j st (pylen u - 1)) in Ok (if (1 <? m)%Z then set_k (set_j st (pylen u - 1)) (pj (set_j st (pylen u - 1))) else set_j st (pylen u - 1))) = Ok st' /\ holds st' (if 1 <? measure u then u else u ++ s)).
    { rewrite (measure_holds depth (set_j st (pylen u - 1)) u s H eq_refl). cbn [rbind]. eexists. split; [reflexivity|]. destruct (Nat.ltb_spec 1 (measure u)) as [M|M]; destruct (Z.ltb_spec 1 (Z.of_nat (measure u))); try lia; [|exact H].
      unfold set_k, set_j. cbn [pb pk pj]. apply (holds_to _ _ s _ _ H); [apply pos_measure; lia | reflexivity]. }
    destruct before as [|c0 before]; [cbn [rbind fst snd]; exact Take|].
    destruct (snoc_or_nil u) as [->|(v & c & ->)].
    + (* the whole word: the letter before it is some letter of the buffer *)
      cbn [app] in *. change (pylen [] - 1)%Z with (-1)%Z in *. cbn [set_j pb pj]. assert (G : exists d, pyget (pb st) (-1) = Ok d).
      { destruct H as (Hn & rest & Eb & _ & _). assert (Nb : pb st <> []) by (rewrite Eb; destruct s; [congruence | discriminate]). destruct (app_last_eq _ Nb) as (y & d & E). exists d. rewrite E. apply pyget_last. }
      destruct G as [d G]. rewrite G. cbn [rbind]. destruct (IH (set_j st (-1)) s S3 H) as (st2 & E2 & H2).
      assert (X : (if existsb (N.eqb (last [] 0%N)) (c0 :: before) then if 1 <? measure [] then [] else s else drop_rule rules s) = s) by (rewrite S2; destruct (existsb _ _); reflexivity).
      match goal with |- exists st', _ /\ Porter_Proofs.holds _ st' ?x => replace x with s by (symmetry; exact X) end.
      destruct (ch_in d (c0 :: before)); [cbn [rbind fst snd]; exact Take|]. exists st2. rewrite S2 in H2. split; [exact E2 | exact H2].
    + rewrite last_snoc. cbn [set_j pb pj]. rewrite pylen_app. change (pylen [c]) with 1%Z. replace (pylen v + 1 - 1)%Z with (pylen v) by lia. rewrite <- app_assoc in H. rewrite (get_holds depth st v c s H). cbn [rbind].
      rewrite app_assoc in H. rewrite pylen_app in Take. change (pylen [c]) with 1%Z in Take. replace (pylen v + 1 - 1)%Z with (pylen v) in Take by lia.
      change (ch_in c (c0 :: before)) with (existsb (N.eqb c) (c0 :: before)). destruct (existsb (N.eqb c) (c0 :: before)); [cbn [rbind fst snd]; exact Take|]. exact (IH (set_j st (pylen v)) _ S3 H).
Qed.
Lemma drop_skip : forall a rules w, Forall (fun sr => chop (fst sr) w = None) a -> drop_rule (a ++ rules) w = drop_rule rules w.
Proof. intros a rules w F. induction F as [|[s r] a E F IH]; [reflexivity|]. cbn [app drop_rule fst] in *. rewrite E. exact IH. Qed.
Lemma drop_none : forall rules w, Forall (fun sr => chop (fst sr) w = None) rules -> drop_rule rules w = w.
Proof. intros rules w F. induction F as [|[s r] a E F IH]; [reflexivity|]. cbn [drop_rule fst] in *. rewrite E. exact IH. Qed.
Lemma drop_app : forall a b w, Forall (fun sr => chop (fst sr) w = None) b -> drop_rule (a ++ b) w = drop_rule a w.
Proof. intros a b w F. induction a as [|[s r] a IH]; cbn [app drop_rule]; [apply drop_none; exact F|]. destruct (chop s w); [|exact IH]. destruct (match r with [] => true | _ => _ end); [reflexivity | exact IH]. Qed.
Lemma side4 : forall ch, side (by_letter ch table4).
Proof.
  intros ch. unfold table4. cbn [by_letter]. repeat (match goal with |- context [N.eqb ch ?c] => destruct (N.eqb ch c) end; [cbn [side]; repeat split; try discriminate; reflexivity|]). exact I.
Qed.
Lemma drop_rule4 : forall w, drop_rule (concat (map snd table4)) w = rule4 w.
Proof.
  intros w. unfold rule4, rules4, table4. cbn [map concat snd app drop_rule first_match].
  repeat match goal with |- context [match chop ?s w with Some _ => _ | None => _ end] =>
    lazymatch goal with
    | H : chop s w = _ |- _ => rewrite H; cbv iota
    | _ => let E := fresh "E" in destruct (chop s w) as [?u|] eqn:E;
        [repeat match goal with |- context [chop ?t w] => rewrite (chop_clash s t w _ E eq_refl eq_refl) end; cbv iota; cbn [andb]; try reflexivity; repeat (destruct (existsb _ _)); reflexivity|]
    end end.
  reflexivity.
Qed.
Lemma step4_ok : forall st w, holds st w -> exists st', step4 depth st = Ok st' /\ holds st' (rule4 w).
Proof.
  intros st w H. destruct (penult st w H) as (ch & G & P). unfold step4. rewrite G. cbn [rbind]. destruct (any_rule_ok (by_letter ch table4) st w (side4 ch) H) as (st' & E & H'). exists st'. split; [exact E|].
  rewrite <- drop_rule4. destruct (by_letter_split 1 table4 ch w classed4 P) as (a & b & Ec & A & B). rewrite Ec, drop_skip by exact A. rewrite drop_app by exact B. exact H'.
Qed.

(** ** Step 5 *)
Lemma vc_snoc : forall l, vc (l ++ [false]) = vc l.
Proof. induction l as [|a l IH]; [reflexivity|]. destruct l as [|b l]; [destruct a; reflexivity|]. cbn [app vc] in *. rewrite IH. reflexivity. Qed.
Lemma measure_e : forall u, measure (u ++ str "e") = measure u.
Proof. intros u. unfold measure. destruct (shape_app u (str "e")) as [q E]. rewrite E. apply vc_snoc. Qed.
Lemma chop_ll : forall v c, chop (str "ll") ((v ++ [c]) ++ [108%N]) = if N.eqb c 108 then Some v else None.
Proof.
  intros v c. destruct (N.eqb_spec c 108) as [->|Ne]; [apply chop_some; rewrite <- app_assoc; reflexivity|]. destruct (chop _ _) as [u|] eqn:E; [|reflexivity]. apply chop_some in E. change (str "ll") with ([108%N] ++ [108%N]) in E. rewrite app_assoc in E.
  apply app_inj_tail in E. destruct E as [E _]. apply app_inj_tail in E. destruct E. congruence.
Qed.
Lemma double_l : forall w, last w 0%N = 108%N -> double_cons w = match chop (str "ll") w with Some _ => true | None => false end.
Proof.
  intros w L. destruct (snoc_or_nil w) as [->|(v & c & ->)]; [discriminate|]. rewrite last_snoc in L. subst c. destruct (snoc_or_nil v) as [->|(x & c & ->)]; [reflexivity|]. rewrite chop_ll. unfold double_cons.
  destruct (shape_app (x ++ [c]) [108%N]) as [q E]. rewrite E, !rev_app_distr. change (shape_from q [108%N]) with [true]. cbn [rev app]. rewrite N.eqb_sym. destruct (N.eqb c 108); reflexivity.
Qed.
(** The measure of step 5 counts the word before its final e was cut. *)
Definition ell (st : pstate) : result pstate :=
  let* c := pyget (pb st) (pk st) in
  if N.eqb c 108 then
    let* d := doublec depth (pb st) (pk st) in
    if d then let* m := measure_ depth st in Ok (if (1 <? m)%Z then set_k st (pk st - 1) else st) else Ok st
  else Ok st.
Lemma ell_ok : forall st w, holds st w -> measure_ depth st = Ok (Z.of_nat (measure w)) -> exists st', ell st = Ok st' /\ holds st' (rule5b w).
Proof.
  intros st w H M. assert (Ne : w <> []) by apply H. pose proof (holds_k depth _ _ H) as K. destruct (app_last_eq w Ne) as (v & c & E). unfold ell. rewrite E in H. rewrite (final st v c H). rewrite <- E in H. cbn [rbind]. unfold rule5b.
  destruct (N.eqb_spec c 108) as [->|Nc].
  - assert (H0 : holds st (w ++ [])) by (rewrite app_nil_r; exact H). rewrite K, (doublec_holds depth st w [] H0 Ne). cbn [rbind]. rewrite double_l by (rewrite E; apply last_snoc).
    destruct (chop (str "ll") w) as [x|] eqn:C; [|rewrite andb_false_r; eexists; split; [reflexivity | exact H]].
    rewrite M. cbn [rbind]. eexists. split; [reflexivity|]. rewrite andb_true_r. destruct (Nat.ltb_spec 1 (measure w)); destruct (Z.ltb_spec 1 (Z.of_nat (measure w))); try lia; [|exact H].
    rewrite E, removelast_last. unfold set_k. rewrite E in H. assert (Nv : v <> []). { intros ->. rewrite E in C. discriminate C. }
    apply (holds_to _ _ _ _ _ H Nv). rewrite pylen_app. change (pylen [108%N]) with 1%Z. lia.
  - destruct (chop (str "ll") w) as [x|] eqn:C; [|rewrite andb_false_r; eexists; split; [reflexivity | exact H]]. exfalso. rewrite E in C. apply chop_some in C. change (str "ll") with ([108%N] ++ [108%N]) in C. rewrite app_assoc in C. apply app_inj_tail in C. destruct C. congruence.
Qed.
Lemma step5_ok : forall st w, holds st w -> exists st', step5 depth st = Ok st' /\ holds st' (rule5b (rule5a w)).
Proof.
  intros st w H. assert (Ne : w <> []) by apply H. pose proof (holds_k depth _ _ H) as K. destruct (app_last_eq w Ne) as (v & c & E).
  assert (E5 : step5 depth st = let* st1 := (let st1 := set_j st (pk st) in
    if N.eqb c 101 then
      let* a := measure_ depth st1 in
      if (1 <? a)%Z then Ok (set_k st1 (pk st1 - 1))
      else if (a =? 1)%Z then let* c := cvc depth (pb st1) (pk st - 1) in Ok (if c then st1 else set_k st1 (pk st1 - 1))
      else Ok st1
    else Ok st1) in ell st1).
  { unfold step5. cbv zeta. cbn [set_j pb]. rewrite E in H. rewrite (final st v c H). reflexivity. }
  rewrite E5. clear E5. cbv zeta.
  assert (H1 : holds (set_j st (pk st)) w) by exact H. assert (J : pj (set_j st (pk st)) = (pylen w - 1)%Z) by exact K.
  assert (M : measure_ depth (set_j st (pk st)) = Ok (Z.of_nat (measure w))) by (apply (measure_holds depth _ w []); [rewrite app_nil_r; exact H1 | exact J]).
  unfold rule5a. destruct (N.eqb_spec c 101) as [->|Nc].
  - assert (C : chop (str "e") w = Some v) by (rewrite E; apply (chop_app v (str "e"))). rewrite C, M. cbn [rbind].
    assert (Mv : measure w = measure v) by (rewrite E; apply measure_e). rewrite Mv in *.
    assert (Keep : exists st', ell (set_j st (pk st)) = Ok st' /\ holds st' (rule5b w)) by (apply ell_ok; [exact H1 | rewrite M, Mv; reflexivity]).
    assert (Cut : v <> [] -> exists st', ell (set_k (set_j st (pk st)) (pk (set_j st (pk st)) - 1)) = Ok st' /\ holds st' (rule5b v)).
    { intros Nv. apply ell_ok; [unfold set_k, set_j; cbn [pb pk pj]; rewrite E in H; apply (holds_to _ _ _ _ _ H Nv); rewrite K, E, pylen_app; change (pylen [101%N]) with 1%Z; lia|].
      exact M. }
    destruct (Nat.ltb_spec 1 (measure v)); destruct (Z.ltb_spec 1 (Z.of_nat (measure v))); try lia; cbn [orb rbind].
    + apply Cut. apply pos_measure. lia.
    + destruct (Nat.eqb_spec (measure v) 1); destruct (Z.eqb_spec (Z.of_nat (measure v)) 1); try lia; cbn [andb rbind]; [|exact Keep].
      cbn [set_j pb]. rewrite K. replace (pylen w - 1 - 1)%Z with (pylen v - 1)%Z by (rewrite E, pylen_app; change (pylen [101%N]) with 1%Z; lia). rewrite E in H. rewrite (cvc_holds depth st v [101%N] H). cbn [rbind]. rewrite <- K.
      destruct (short_end v); cbn [negb]; [exact Keep|]. apply Cut. apply pos_measure. lia.
  - assert (C : chop (str "e") w = None) by (rewrite E; change (str "e") with ([] ++ [101%N]); apply chop_end; congruence). rewrite C. cbn [rbind]. apply ell_ok; [exact H1 | exact M].
Qed.
End Steps.
