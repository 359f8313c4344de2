(** Theorems about the Porter stemmer (property C83). *)
From Verif Require Import Base Str Porter_Model Porter_Spec Porter_Proofs Porter_Proofs2.
From Coq Require Import ZifyBool ZifyNat ZifyN.
Local Open Scope nat_scope.

Lemma runs_bound : forall w n, Forall (fun r => r < S (n + length w)) (runs n w).
Proof.
  induction w as [|c w IH]; intros n; cbn [runs]; constructor; [destruct (N.eqb c 121); cbn [length]; lia|]. eapply Forall_impl; [|apply IH]. cbv beta. cbn [length]. intros a. destruct (N.eqb c 121); lia.
Qed.
Lemma below_pos : forall d w, runs_below d w -> w <> [] -> 0 < d.
Proof. intros d [|c w] H N; [congruence|]. unfold runs_below in H. cbn [runs] in H. inversion H; subst. lia. Qed.
Lemma stem_holds : forall depth lower st w, runs_below depth (lower w) ->
  (length (lower w) <= 2 /\ stem depth lower st w = Ok (lower w, st)) \/
  (2 < length (lower w) /\ exists st', stem depth lower st w = Ok (porter (lower w), st') /\ holds depth st' (porter (lower w))).
Proof.
  intros depth lower st w B. unfold stem. set (v := lower w) in *. clearbody v. unfold pylen. destruct (Z.leb_spec (Z.of_nat (length v) - 1) 1) as [L|L].
  { left. split; [lia | reflexivity]. }
  right. split; [lia|]. assert (Ne : v <> []) by (intros ->; cbn in L; lia). pose proof (below_pos _ _ B Ne) as Hd.
  assert (H : holds depth (mkP v (Z.of_nat (length v) - 1) (pj st)) v) by (split; [exact Ne|]; exists []; cbn [pb pk]; rewrite app_nil_r; auto).
  destruct (step1ab_ok depth Hd _ _ H ltac:(lia)) as (s1 & -> & H1). cbn [rbind]. destruct (step1c_ok depth Hd _ _ H1) as (s2 & -> & H2). cbn [rbind]. destruct (step2_ok depth Hd _ _ H2) as (s3 & -> & H3). cbn [rbind].
  destruct (step3_ok depth Hd _ _ H3) as (s4 & -> & H4). cbn [rbind]. destruct (step4_ok depth Hd _ _ H4) as (s5 & -> & H5). cbn [rbind]. destruct (step5_ok depth Hd _ _ H5) as (s6 & -> & H6). cbn [rbind].
  exists s6. unfold porter. replace (length v <=? 2) with false by lia. split; [|exact H6]. f_equal. f_equal. destruct H6 as (_ & rest & Eb & Ek & _). rewrite Eb, Ek. replace (pylen (rule5b (rule5a (rule4 (rewrite_rule rules3 (rewrite_rule rules2 (rule1c (rule1b (rule1a v)))))))) - 1 + 1)%Z with (pylen (rule5b (rule5a (rule4 (rewrite_rule rules3 (rewrite_rule rules2 (rule1c (rule1b (rule1a v))))))))) by lia.
  apply pyprefix_app.
Qed.

(** ** The stem of a word
    is what the rules of the algorithm give for the lower-case word, whatever words were stemmed before: no index error, no letter
    left over in the buffer is read as part of the word. *)
Theorem stem_porter : forall depth lower st w, runs_below depth (lower w) -> exists st', stem depth lower st w = Ok (porter (lower w), st').
Proof.
  intros depth lower st w B. destruct (stem_holds depth lower st w B) as [[L E]|[L (st' & E & _)]]; [|eauto]. exists st. rewrite E. unfold porter. replace (length (lower w) <=? 2) with true by lia. reflexivity.
Qed.
Print Assumptions stem_porter.
Example stem_porter_ex : stem 50 (fun w => w) (mkP (str "zzz") 77 (-5)) (str "generalizations") = Ok (str "gener", mkP (str "general") 4 4) /\ porter (str "generalizations") = str "gener".
Proof. split; vm_compute; reflexivity. Qed.

(** ** Which words are refused
    The test for a consonant recurses over runs of y: a word with a run longer than the stack raises. *)
Lemma snoc_rep : forall {A} (x : A) n, repeat x n ++ [x] = x :: repeat x n.
Proof. intros A x n. induction n as [|n IH]; [reflexivity|]. cbn [repeat app]. now rewrite IH. Qed.
Lemma deep_cons : forall d n rest i, d <= i -> i <= n -> cons d (97%N :: repeat 121%N n ++ rest) (Z.of_nat i) = Err RuntimeErr.
Proof.
  induction d as [|d IH]; intros n rest i Hd Hn; [reflexivity|]. destruct i as [|i]; [lia|]. cbn [cons]. rewrite (pyget_nat _ _ 121%N).
  - cbn [rbind]. change (ch_in 121%N (str "aeiou")) with false. change (N.eqb 121 121) with true. cbv iota. destruct (Z.eqb_spec (Z.of_nat (S i)) 0); [lia|]. replace (Z.of_nat (S i) - 1)%Z with (Z.of_nat i) by lia. rewrite IH by lia. reflexivity.
  - cbn [nth_error]. rewrite nth_error_app1 by (rewrite repeat_length; lia). apply nth_error_repeat. lia.
Qed.
Theorem stem_recursion_refuted : forall depth st, 2 <= depth -> exists w, stem depth (fun w => w) st w = Err RuntimeErr.
Proof.
  intros depth st Hd. destruct depth as [|[|d]]; try lia. clear Hd. set (D := S (S d)). exists (97%N :: repeat 121%N D ++ str "ed").
  set (w := 97%N :: repeat 121%N D ++ str "ed"). unfold stem. assert (Lw : length w = D + 3) by (unfold w; cbn [length]; rewrite app_length, repeat_length; cbn; lia).
  destruct (Z.leb_spec (pylen w - 1) 1) as [L|L]; [unfold pylen in L; unfold D in *; lia|].
  assert (Hh : forall j, holds (S (length w)) (mkP w (pylen w - 1) j) w) by (intros j; split; [discriminate|]; exists []; cbn [pb pk]; rewrite app_nil_r; split; [reflexivity|]; split; [reflexivity|]; apply (runs_bound w 0)).
  set (u := 97%N :: repeat 121%N D). assert (Eu : w = u ++ str "ed") by reflexivity. assert (Eu' : u = (97%N :: repeat 121%N (S d)) ++ [121%N]) by (unfold u, D; cbn [app]; rewrite snoc_rep; reflexivity).
  assert (C1 : chop (str "yed") w = Some (97%N :: repeat 121%N (S d))) by (apply chop_some; rewrite Eu, Eu', <- app_assoc; reflexivity).
  assert (C2 : chop (str "eed") w = None) by (apply (chop_clash _ _ _ _ C1); vm_compute; reflexivity).
  assert (C3 : chop (str "ed") w = Some u) by (apply chop_some; exact Eu).
  assert (E : step1ab D (mkP w (pylen w - 1) (pj st)) = Err RuntimeErr).
  { unfold step1ab. assert (G : pyget w (pylen w - 1) = Ok 100%N) by (rewrite Eu; change (u ++ str "ed") with (u ++ [101%N] ++ [100%N]); rewrite app_assoc; rewrite pylen_app; change (pylen [100%N]) with 1%Z; replace (pylen (u ++ [101%N]) + 1 - 1)%Z with (pylen (u ++ [101%N])) by lia; apply pyget_app).
    cbn [pb pk]. rewrite G. cbn [rbind]. change (N.eqb 100 115) with false. cbv iota. cbn [rbind].
    rewrite (ends_ok _ (str "eed") _ _ ltac:(discriminate) (Hh _)), C2. cbn [rbind fst snd]. rewrite (ends_ok _ (str "ed") _ _ ltac:(discriminate) (Hh _)), C3. cbn [rbind fst snd negb]. unfold set_j. cbn [pb pk].
    assert (V : vowelinstem D (mkP w (pylen w - 1) (pylen u - 1)) = Ok true).
    { unfold vowelinstem. cbn [pb pj]. replace (Z.to_nat (pylen u - 1 + 1)) with (S D) by (unfold pylen, u; cbn [length]; rewrite repeat_length; lia). reflexivity. }
    rewrite V. cbn [rbind negb]. unfold set_k. cbn [pb pj].
    assert (Hu : holds (S (length w)) (mkP w (pylen u - 1) (pylen u - 1)) u) by (apply (holds_prefix _ (mkP w (pylen w - 1) 0) u (str "ed")); [exact (Hh 0%Z) | discriminate]).
    assert (K1 : forall t x, x <> 121%N -> chop (t ++ [x]) u = None) by (intros t x Hx; rewrite Eu'; apply chop_end; exact Hx).
    rewrite (ends_ok _ (str "at") _ _ ltac:(discriminate) Hu). change (str "at") with ([97%N] ++ [116%N]) at 1. rewrite K1 by discriminate. cbn [rbind fst snd].
    rewrite (ends_ok _ (str "bl") _ _ ltac:(discriminate) Hu). change (str "bl") with ([98%N] ++ [108%N]) at 1. rewrite K1 by discriminate. cbn [rbind fst snd].
    rewrite (ends_ok _ (str "iz") _ _ ltac:(discriminate) Hu). change (str "iz") with ([105%N] ++ [122%N]) at 1. rewrite K1 by discriminate. cbn [rbind fst snd pb pk].
    unfold doublec. assert (Lu : (pylen u - 1 = Z.of_nat D)%Z) by (unfold pylen, u; cbn [length]; rewrite repeat_length; lia). rewrite Lu. destruct (Z.ltb_spec 0 (Z.of_nat D)); [|unfold D in *; lia].
    rewrite (pyget_nat w D 121%N).
    - replace (Z.of_nat D - 1)%Z with (Z.of_nat (S d)) by (unfold D; lia). rewrite (pyget_nat w (S d) 121%N); [cbn [rbind]; change (N.eqb 121 121) with true; cbv iota; unfold w; rewrite (deep_cons D D (str "ed") D) by lia; reflexivity|]. unfold w. cbn [nth_error]. rewrite nth_error_app1 by (rewrite repeat_length; unfold D; lia). apply nth_error_repeat. unfold D. lia.
    - change (nth_error (repeat 121%N D ++ str "ed") (S d) = Some 121%N). rewrite nth_error_app1 by (rewrite repeat_length; unfold D; lia). apply nth_error_repeat. unfold D. lia. }
  cbv zeta. fold w. rewrite E. reflexivity.
Qed.
Print Assumptions stem_recursion_refuted.

(** ** Rules *)
Definition suffix_of (s w : pystr) : Prop := exists u, w = u ++ s.
Fixpoint ordered (rules : list (pystr * pystr)) : bool :=
  match rules with
  | [] => true
  | (s, _) :: rules' => forallb (fun tr => match chop s (fst tr) with None => true | Some _ => false end) rules' && ordered rules'
  end.
Lemma first_match_longest : forall rules w, ordered rules = true ->
  match first_match rules w with
  | Some (u, r) => exists s, In (s, r) rules /\ w = u ++ s /\ forall s' r', In (s', r') rules -> suffix_of s' w -> length s' <= length s
  | None => forall s' r', In (s', r') rules -> ~ suffix_of s' w
  end.
Proof.
  induction rules as [|[s r] rules IH]; intros w O; cbn [first_match]; [intros ? ? []|]. cbn [ordered] in O. apply andb_true_iff in O. destruct O as [O1 O2]. destruct (chop s w) as [u|] eqn:E.
  - exists s. split; [left; reflexivity|]. split; [apply chop_some; exact E|]. intros s' r' [X|X] [v V]; [injection X as <- <-; lia|]. rewrite forallb_forall in O1. specialize (O1 _ X). cbn [fst] in O1.
    destruct (chop s s') eqn:C; [discriminate|]. destruct (chop_both s s' w u v E) as [Y|Y]; [apply chop_some; exact V | congruence|]. destruct (chop s' s) as [z|] eqn:D; [|congruence]. apply chop_some in D. rewrite D, app_length. lia.
  - specialize (IH w O2). destruct (first_match rules w) as [[u r0]|].
    + destruct IH as (s0 & I0 & W & L). exists s0. split; [right; exact I0|]. split; [exact W|]. intros s' r' [X|X] Sf; [|exact (L s' r' X Sf)]. injection X as <- <-. destruct Sf as [v V]. exfalso. exact (chop_none _ _ E _ V).
    + intros s' r' [X|X] Sf; [|exact (IH s' r' X Sf)]. injection X as <- <-. destruct Sf as [v V]. exact (chop_none _ _ E _ V).
Qed.
(** Of the suffixes of a step the longest that matches decides, although the code asks for them one after the other. *)
Theorem longest_suffix : forall rules w, In rules [rules2; rules3; rules4] ->
  match first_match rules w with
  | Some (u, r) => exists s, In (s, r) rules /\ w = u ++ s /\ forall s' r', In (s', r') rules -> suffix_of s' w -> length s' <= length s
  | None => forall s' r', In (s', r') rules -> ~ suffix_of s' w
  end.
Proof. intros rules w H. apply first_match_longest. destruct H as [<-|[<-|[<-|[]]]]; vm_compute; reflexivity. Qed.
Print Assumptions longest_suffix.
Example longest_suffix_ex : first_match rules2 (str "relational") = Some (str "rel", str "ate") /\ suffix_of (str "tional") (str "relational").
Proof. split; [vm_compute; reflexivity|]. exists (str "rela"). reflexivity. Qed.

(** The measure: a word is [C](VC)^m[V], a run of consonants, [m] runs of vowels each with a run of consonants, a run of vowels. *)
Definition block (ij : nat * nat) : list bool := repeat false (S (fst ij)) ++ repeat true (S (snd ij)).
Lemma vc_false : forall n, vc (repeat false n) = 0.
Proof. intros n. apply (vc_const false). apply Forall_forall. intros x H. apply repeat_spec in H. auto. Qed.
Lemma vc_true_app : forall n l, vc (repeat true n ++ l) = vc l.
Proof.
  intros n l. induction n as [|n IH]; [reflexivity|]. cbn [repeat app]. rewrite <- IH. destruct (repeat true n ++ l); reflexivity.
Qed.
Lemma vc_block : forall i j l, vc (block (i, j) ++ l) = S (vc l).
Proof.
  intros i j l. unfold block. cbn [fst snd]. rewrite <- app_assoc. cbn [repeat app]. rewrite (vc_pre false) by (apply Forall_forall; intros x H; apply repeat_spec in H; auto). cbn [negb andb].
  change (true :: repeat true j ++ l) with (repeat true (S j) ++ l). now rewrite vc_true_app.
Qed.
Lemma vc_form : forall c blocks v, vc (repeat true c ++ concat (map block blocks) ++ repeat false v) = length blocks.
Proof. intros c blocks v. rewrite vc_true_app. induction blocks as [|[i j] blocks IH]; cbn [map concat app length]; [apply vc_false|]. rewrite <- app_assoc, vc_block. now rewrite IH. Qed.
Lemma form_exists : forall l, exists c blocks v, l = repeat true c ++ concat (map block blocks) ++ repeat false v.
Proof.
  induction l as [|x l (c & blocks & v & ->)]; [exists 0, [], 0; reflexivity|]. destruct x.
  - exists (S c), blocks, v. reflexivity.
  - destruct c as [|c].
    + destruct blocks as [|[i j] blocks]; [exists 0, [], (S v); reflexivity|]. exists 0, ((S i, j) :: blocks), v. reflexivity.
    + exists 0, ((0, c) :: blocks), v. cbn [map concat]. rewrite <- app_assoc. reflexivity.
Qed.
Theorem measure_form : forall w m, measure w = m <->
  exists c blocks v, shape w = repeat true c ++ concat (map block blocks) ++ repeat false v /\ length blocks = m.
Proof.
  intros w m. unfold measure. split.
  - intros <-. destruct (form_exists (shape w)) as (c & blocks & v & E). exists c, blocks, v. split; [exact E|]. rewrite E. symmetry. apply vc_form.
  - intros (c & blocks & v & E & <-). rewrite E. apply vc_form.
Qed.
Print Assumptions measure_form.
Example measure_form_ex : measure (str "troubles") = 2 /\ shape (str "syzygy") = [true; false; true; false; true; false] /\ map measure [str "tree"; str "by"; str "oats"; str "private"] = [0; 0; 1; 2].
Proof. repeat split; vm_compute; reflexivity. Qed.

(** ** What a stem can look like *)
Definition letters : pystr := str "abcdefghijklmnopqrstuvwxyz".
Section Chars.
Variable P : N -> Prop.
Hypothesis PL : Forall P letters.
Lemma lower_letters : forall s, forallb (fun c => existsb (N.eqb c) letters) s = true -> Forall P s.
Proof.
  intros s H. apply Forall_forall. intros c Hc. rewrite forallb_forall in H. specialize (H c Hc). apply existsb_exists in H. destruct H as (x & Hx & E). apply N.eqb_eq in E. subst x. rewrite Forall_forall in PL. apply PL. exact Hx.
Qed.
Ltac lets := apply lower_letters; vm_compute; reflexivity.
Lemma chop_chars : forall s w u, Forall P w -> chop s w = Some u -> Forall P u.
Proof. intros s w u H E. apply chop_some in E. subst w. apply Forall_app in H. apply H. Qed.
Lemma removelast_chars : forall w, Forall P w -> Forall P (removelast w).
Proof. intros w H. destruct (snoc_or_nil w) as [->|(v & c & ->)]; [constructor|]. rewrite removelast_last. apply Forall_app in H. apply H. Qed.
Lemma mend_chars : forall u, Forall P u -> Forall P (mend u).
Proof.
  intros u H. assert (E : Forall P (u ++ str "e")) by (apply Forall_app; split; [exact H | lets]). unfold mend.
  destruct (chop (str "at") u), (chop (str "bl") u), (chop (str "iz") u); try exact E. destruct (double_cons u); [destruct (existsb _ _); [exact H | apply removelast_chars; exact H]|]. destruct (_ && _); [exact E | exact H].
Qed.
Lemma first_match_chars : forall rules w u r, Forall P w -> Forall (fun sr => Forall P (snd sr)) rules -> first_match rules w = Some (u, r) -> Forall P u /\ Forall P r.
Proof.
  intros rules w u r H F E. induction F as [|[s r'] rules R F IH]; [discriminate|]. cbn [first_match snd] in *. destruct (chop s w) as [x|] eqn:C; [injection E as -> ->; split; [exact (chop_chars _ _ _ H C) | exact R] | exact (IH E)].
Qed.
Lemma rewrite_chars : forall rules w, Forall P w -> Forall (fun sr => Forall P (snd sr)) rules -> Forall P (rewrite_rule rules w).
Proof. intros rules w H F. unfold rewrite_rule. destruct (first_match rules w) as [[u r]|] eqn:E; [|exact H]. destruct (first_match_chars _ _ _ _ H F E). destruct (0 <? measure u); [apply Forall_app; auto | exact H]. Qed.
Lemma rules_chars : forall rules, forallb (fun sr => forallb (fun c => existsb (N.eqb c) letters) (snd sr)) rules = true -> Forall (fun sr : pystr * pystr => Forall P (snd sr)) rules.
Proof. intros rules H. rewrite forallb_forall in H. apply Forall_forall. intros sr I. apply lower_letters. exact (H sr I). Qed.
Lemma porter_chars : forall w, Forall P w -> Forall P (porter w).
Proof.
  intros w H. unfold porter. destruct (length w <=? 2); [exact H|].
  assert (H1 : Forall P (rule1a w)).
  { unfold rule1a. repeat match goal with |- context [match chop ?s w with Some _ => _ | None => _ end] => let E := fresh in destruct (chop s w) eqn:E; [apply (chop_chars _ _ _ H) in E; solve [exact H | exact E | apply Forall_app; split; [exact E | lets]]|] end. exact H. }
  assert (H2 : Forall P (rule1b (rule1a w))).
  { revert H1. generalize (rule1a w) as x. intros x H1. unfold rule1b. destruct (chop (str "eed") x) as [u|] eqn:E; [apply (chop_chars _ _ _ H1) in E; destruct (0 <? measure u); [apply Forall_app; split; [exact E | lets] | exact H1]|]. clear E.
    destruct (chop (str "ed") x) as [u|] eqn:E; [apply (chop_chars _ _ _ H1) in E; destruct (has_vowel u); [apply mend_chars; exact E | exact H1]|]. clear E.
    destruct (chop (str "ing") x) as [u|] eqn:E; [apply (chop_chars _ _ _ H1) in E; destruct (has_vowel u); [apply mend_chars; exact E | exact H1]|]. exact H1. }
  assert (H3 : Forall P (rule1c (rule1b (rule1a w)))).
  { revert H2. generalize (rule1b (rule1a w)) as x. intros x H2. unfold rule1c. destruct (chop (str "y") x) as [u|] eqn:E; [|exact H2]. apply (chop_chars _ _ _ H2) in E. destruct (has_vowel u); [apply Forall_app; split; [exact E | lets] | exact H2]. }
  pose proof (rewrite_chars rules2 _ H3 (rules_chars rules2 eq_refl)) as H4. pose proof (rewrite_chars rules3 _ H4 (rules_chars rules3 eq_refl)) as H5. revert H5. generalize (rewrite_rule rules3 (rewrite_rule rules2 (rule1c (rule1b (rule1a w))))) as x. intros x H5. clear - PL H5.
  assert (H6 : Forall P (rule4 x)).
  { unfold rule4. destruct (first_match rules4 x) as [[u r]|] eqn:E; [|exact H5]. destruct (first_match_chars _ _ _ _ H5 (rules_chars rules4 eq_refl) E). destruct (_ && _); assumption. }
  assert (H7 : Forall P (rule5a (rule4 x))).
  { revert H6. generalize (rule4 x) as y. intros y H6. unfold rule5a. destruct (chop (str "e") y) as [u|] eqn:E; [|exact H6]. apply (chop_chars _ _ _ H6) in E. destruct (_ || _); assumption. }
  unfold rule5b. destruct (_ && _); [apply removelast_chars|]; exact H7.
Qed.
End Chars.

Lemma chop_len : forall s w u, chop s w = Some u -> length w = length u + length s.
Proof. intros s w u E. apply chop_some in E. subst. apply app_length. Qed.
Lemma removelast_len : forall (w : pystr), length (removelast w) <= length w.
Proof. intros w. destruct (snoc_or_nil w) as [->|(v & c & ->)]; [cbn; lia|]. rewrite removelast_last, app_length. lia. Qed.
Lemma rewrite_len : forall rules w, forallb (fun sr => length (snd sr) <=? length (fst sr)) rules = true -> length (rewrite_rule rules w) <= length w.
Proof.
  intros rules w F. unfold rewrite_rule. induction rules as [|[s r] rules IH]; cbn [first_match]; [lia|]. cbn [forallb fst snd] in F. apply andb_true_iff in F. destruct F as [F1 F2]. destruct (chop s w) as [u|] eqn:E; [|exact (IH F2)].
  apply chop_len in E. destruct (0 <? measure u); [rewrite app_length; lia | lia].
Qed.
Lemma mend_len : forall u, length (mend u) <= S (length u).
Proof.
  intros u. assert (E : length (u ++ str "e") <= S (length u)) by (rewrite app_length; cbn; lia). unfold mend. pose proof (removelast_len u).
  destruct (chop (str "at") u), (chop (str "bl") u), (chop (str "iz") u); try exact E. destruct (double_cons u); [destruct (existsb _ _); lia|]. destruct (_ && _); [exact E | lia].
Qed.
Lemma porter_len : forall w, length (porter w) <= length w.
Proof.
  intros w. unfold porter. destruct (length w <=? 2); [lia|].
  assert (L1 : length (rule1a w) <= length w).
  { unfold rule1a. repeat match goal with |- context [match chop ?s w with Some _ => _ | None => _ end] => let E := fresh in destruct (chop s w) eqn:E; [apply chop_len in E; cbn [length str] in E; try rewrite app_length; cbn; cbn in E; lia|] end. lia. }
  assert (L2 : forall x, length (rule1b x) <= length x).
  { intros x. unfold rule1b. destruct (chop (str "eed") x) as [u|] eqn:E; [apply chop_len in E; cbn in E; destruct (0 <? measure u); [rewrite app_length; cbn; lia | lia]|]. clear E.
    destruct (chop (str "ed") x) as [u|] eqn:E; [apply chop_len in E; cbn in E; pose proof (mend_len u); destruct (has_vowel u); lia|]. clear E.
    destruct (chop (str "ing") x) as [u|] eqn:E; [apply chop_len in E; cbn in E; pose proof (mend_len u); destruct (has_vowel u); lia|]. lia. }
  assert (L3 : forall x, length (rule1c x) <= length x).
  { intros x. unfold rule1c. destruct (chop (str "y") x) as [u|] eqn:E; [|lia]. apply chop_len in E. cbn in E. destruct (has_vowel u); [rewrite app_length; cbn; lia | lia]. }
  assert (L4 : forall x, length (rule4 x) <= length x).
  { intros x. unfold rule4. destruct (first_match rules4 x) as [[u r]|] eqn:E; [|lia]. pose proof (first_match_longest rules4 x eq_refl) as Q. rewrite E in Q. destruct Q as (s & _ & -> & _). destruct (_ && _); rewrite ?app_length; lia. }
  assert (L5 : forall x, length (rule5a x) <= length x).
  { intros x. unfold rule5a. destruct (chop (str "e") x) as [u|] eqn:E; [|lia]. apply chop_len in E. destruct (_ || _); lia. }
  assert (L6 : forall x, length (rule5b x) <= length x).
  { intros x. unfold rule5b. pose proof (removelast_len x). destruct (_ && _); lia. }
  eapply Nat.le_trans; [apply L6|]. eapply Nat.le_trans; [apply L5|]. eapply Nat.le_trans; [apply L4|]. eapply Nat.le_trans; [apply (rewrite_len rules3); reflexivity|]. eapply Nat.le_trans; [apply (rewrite_len rules2); reflexivity|].
  eapply Nat.le_trans; [apply L3|]. eapply Nat.le_trans; [apply L2|]. exact L1.
Qed.
Lemma porter_nonempty : forall w, w <> [] -> porter w <> [].
Proof.
  intros w Ne. destruct (stem_holds (S (length w)) (fun w => w) stemmer0 w (runs_bound w 0)) as [[L _]|[L (st & _ & (H & _))]]; [|exact H]. unfold porter. replace (length w <=? 2) with true by lia. exact Ne.
Qed.
(** A stem is not longer than the word, it is empty for the empty word only, and its letters are letters of the word or of the
    alphabet a-z. *)
Theorem stem_form : forall depth lower st w, runs_below depth (lower w) -> exists s st', stem depth lower st w = Ok (s, st') /\
  length s <= length (lower w) /\ (s = [] <-> lower w = []) /\ forall c, In c s -> In c (lower w) \/ In c letters.
Proof.
  intros depth lower st w B. destruct (stem_porter depth lower st w B) as [st' E]. exists (porter (lower w)), st'. split; [exact E|]. split; [apply porter_len|]. split.
  - split; [|intros ->; reflexivity]. intros X. destruct (lower w) as [|c v]; [reflexivity|]. exfalso. exact (porter_nonempty (c :: v) ltac:(discriminate) X).
  - intros c Hc. pose proof (porter_chars (fun c => In c (lower w) \/ In c letters)) as Q. rewrite Forall_forall in Q. specialize (Q ltac:(auto) (lower w)). rewrite !Forall_forall in Q. apply Q; [auto | exact Hc].
Qed.
Print Assumptions stem_form.
Example stem_form_ex : porter (str "abilities") = str "abil" /\ porter (str "filing") = str "file" /\ porter (str "sky") = str "sky" /\ porter (str "happy") = str "happi".
Proof. repeat split; vm_compute; reflexivity. Qed.
(** The stem of a stem may be another word: stemming twice is not stemming once. *)
Theorem stem_twice_refuted : exists w, porter (porter w) <> porter w.
Proof. exists (str "agreed"). vm_compute. discriminate. Qed.
Print Assumptions stem_twice_refuted.

(** ** Sentences and documents *)
Lemma stem_all_ok : forall depth lower ws st, Forall (fun w => runs_below depth (lower w)) ws -> exists st', stem_all depth lower ws st = Ok (map (fun w => porter (lower w)) ws, st').
Proof.
  intros depth lower ws st F. revert st. induction F as [|w ws B F IH]; intros st; cbn [stem_all map]; [eauto|]. destruct (stem_porter depth lower st w B) as [s1 ->]. cbn [rbind fst snd]. destruct (IH s1) as [s2 ->]. cbn [rbind fst snd]. eauto.
Qed.
Definition fine_text (depth : nat) (lower : pystr -> pystr) (txt : pystr) : Prop :=
  Forall (fun w => runs_below depth (lower w) /\ lower w <> [] /\ Forall (fun c => is_space c = false) (lower w)) (words is_space txt).
(** A stemmed sentence has the tokens of the sentence, each replaced by its stem, in order; whatever was stemmed before. *)
Theorem stem_sentence_tokens : forall depth lower st txt, fine_text depth lower txt ->
  exists out st', stem_sentence depth lower st txt = Ok (out, st') /\ words is_space out = map (fun w => porter (lower w)) (words is_space txt).
Proof.
  intros depth lower st txt F. unfold stem_sentence. destruct (stem_all_ok depth lower (words is_space txt) st) as [st' E]; [eapply Forall_impl; [|exact F]; intros w H; apply H|]. rewrite E. cbn [rbind fst snd]. eexists. exists st'. split; [reflexivity|].
  rewrite <- (app_nil_r (join _ _)). apply words_join; [reflexivity | | constructor]. apply Forall_map. eapply Forall_impl; [|exact F]. intros w (_ & Ne & Sp). split; [apply porter_nonempty; exact Ne|]. apply porter_chars; [|exact Sp].
  apply Forall_forall. intros c Hc. assert (T : forallb (fun c => negb (is_space c)) letters = true) by (vm_compute; reflexivity). rewrite forallb_forall in T. specialize (T c Hc). destruct (is_space c); [discriminate | reflexivity].
Qed.
Print Assumptions stem_sentence_tokens.
(** Documents do not influence one another. *)
Theorem stem_documents_each : forall depth lower docs st, Forall (fine_text depth lower) docs ->
  exists outs st', stem_documents depth lower docs st = Ok (outs, st') /\ outs = map (fun d => join (str " ") (map (fun w => porter (lower w)) (words is_space d))) docs.
Proof.
  intros depth lower docs st F. revert st. induction F as [|d docs B F IH]; intros st; cbn [stem_documents map]; [eauto|]. unfold stem_sentence.
  destruct (stem_all_ok depth lower (words is_space d) st) as [s1 ->]; [eapply Forall_impl; [|exact B]; intros w H; apply H|]. cbn [rbind fst snd]. destruct (IH s1) as (outs & s2 & -> & ->). cbn [rbind fst snd]. eauto.
Qed.
Print Assumptions stem_documents_each.
Example stem_sentence_ex : stem_sentence 50 (fun w => w) stemmer0 (str "wow  very nice woman with apples ") = Ok (str "wow veri nice woman with appl", mkP (str "apples") 3 4) /\
  fine_text 50 (fun w => w) (str "wow  very nice woman").
Proof. split; [vm_compute; reflexivity|]. unfold fine_text. change (words is_space (str "wow  very nice woman")) with [str "wow"; str "very"; str "nice"; str "woman"]. repeat (constructor; [split; [repeat constructor; vm_compute; lia | split; [discriminate | repeat constructor]]|]). constructor. Qed.
