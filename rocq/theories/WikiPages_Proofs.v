(** Sections of articles. *)
From Coq Require Import ZifyBool ZifyNat ZifyN.
From Verif Require Import Base Str Tfidf_Spec Text_Model Regex_Model Wiki_Spec Regex_Proofs Wiki_Model Wiki_Proofs3 Wiki_Proofs4 WikiPages_Model WikiPages_Spec.
Local Open Scope nat_scope.

(** ** Groups do not change what is matched. *)
Definition same (x y : st) : Prop := back x = back y /\ ahead x = ahead y.
Definition rel (o o' : option st) : Prop := match o, o' with Some x, Some y => same x y | None, None => True | _, _ => False end.
Fixpoint erase (r : re) : re :=
  match r with Cat a b => Cat (erase a) (erase b) | Alt a b => Alt (erase a) (erase b) | Star g a => Star g (erase a) | Grp _ a => erase a | _ => r end.
Lemma m_erase : forall r s s' k k', same s s' -> (forall x x', same x x' -> rel (k x) (k' x')) -> rel (m r s k) (m (erase r) s' k').
Proof.
  induction r as [|f|a IHa b IHb|a IHa b IHb|g a IHa|n a IHa|f]; intros s s' k k' E K; cbn [m erase].
  - apply K, E.
  - destruct E as (E1 & E2). rewrite <- E2. destruct (ahead s) as [|c t]; [exact Logic.I|]. destruct (f c); [|exact Logic.I]. apply K. split; cbn [step back ahead]; congruence.
  - apply IHa; [exact E|]. intros x x' X. apply IHb; [exact X | exact K].
  - pose proof (IHa s s' k k' E K) as H. destruct (m a s k), (m (erase a) s' k'); cbn [rel] in H; try contradiction; [exact H | apply IHb; assumption].
  - assert (L : length (ahead s) = length (ahead s')) by (destruct E as (_ & ->); reflexivity). rewrite <- L. generalize (length (ahead s)) as n. intros n. clear L. revert s s' E. induction n as [|n IHn]; intros s s' E; cbn [iter].
    + pose proof (K s s' E) as H. destruct g; [exact H|]. destruct (k s), (k' s'); cbn [rel] in *; try contradiction; [exact H | exact Logic.I].
    + assert (Q : rel (m a s (fun s'0 => if length (ahead s'0) <? length (ahead s) then iter (m a) g n s'0 k else None)) (m (erase a) s' (fun s'0 => if length (ahead s'0) <? length (ahead s') then iter (m (erase a)) g n s'0 k' else None))).
      { apply IHa; [exact E|]. intros x x' X. destruct E as (_ & E2). destruct X as (X1 & X2). rewrite <- E2, <- X2. destruct (length (ahead x) <? length (ahead s)); [|exact Logic.I]. apply IHn. split; assumption. }
      pose proof (K s s' E) as H. destruct g; cbv beta iota zeta.
      * match goal with |- rel (match ?A with _ => _ end) (match ?B with _ => _ end) => destruct A, B end; cbn [rel] in Q; try contradiction; assumption.
      * destruct (k s), (k' s'); cbn [rel] in *; try contradiction; assumption.
  - apply IHa; [exact E|]. intros x x' (X1 & X2). apply K. split; cbn [grab back ahead]; assumption.
  - destruct E as (E1 & E2). rewrite <- E1, <- E2. destruct (f (back s) (ahead s)); [apply K; split; assumption | exact Logic.I].
Qed.
Lemma m1_erase : forall r bk s, rel (m1 r bk s) (m1 (erase r) bk s).
Proof. intros r bk s. apply m_erase; [split; reflexivity|]. intros x x' X. exact X. Qed.
Lemma heading_erased : HEADING = erase HEADING_CAPTURE.
Proof. reflexivity. Qed.

(** ** Patterns without assertions match whenever they can. *)
Fixpoint blind (r : re) : bool :=
  match r with Cat a b | Alt a b => blind a && blind b | Star _ a | Grp _ a => blind a | Look _ => false | _ => true end.
Lemma lang_reach : forall r w, lang r w -> blind r = true -> forall s t, ahead s = w ++ t -> exists s', reach r s s' /\ ahead s' = t.
Proof.
  intros r w H. induction H as [|f c F|a b u v _ IH1 _ IH2|a b u _ IH|a b u _ IH|g a|g a u v _ IH1 NE _ IH2|n a u _ IH|f]; intros B s t A; cbn [blind] in B; try (apply Bool.andb_true_iff in B as (B1 & B2)).
  - exists s. split; [constructor | exact A].
  - exists (step c t s). split; [constructor; [exact A | exact F] | reflexivity].
  - rewrite <- app_assoc in A. destruct (IH1 B1 s (v ++ t) A) as (s1 & R1 & A1). destruct (IH2 B2 s1 t A1) as (s2 & R2 & A2). exists s2. split; [econstructor; eassumption | exact A2].
  - destruct (IH B1 s t A) as (s1 & R1 & A1). exists s1. split; [apply R_altl; exact R1 | exact A1].
  - destruct (IH B2 s t A) as (s1 & R1 & A1). exists s1. split; [apply R_altr; exact R1 | exact A1].
  - exists s. split; [constructor | exact A].
  - rewrite <- app_assoc in A. destruct (IH1 B s (v ++ t) A) as (s1 & R1 & A1). destruct (IH2 B s1 t A1) as (s2 & R2 & A2). exists s2. split; [|exact A2]. apply (R_starS g a s s1); [exact R1 | | exact R2].
    rewrite A, A1. destruct u; [congruence|]. cbn [app length]. rewrite !app_length. lia.
  - destruct (IH B s t A) as (s1 & R1 & A1). exists (grab n s s1). split; [constructor; exact R1 | exact A1].
  - discriminate.
Qed.
Lemma m1_blind : forall r w t bk, blind r = true -> lang r w -> m1 r bk (w ++ t) <> None.
Proof.
  intros r w t bk B L E. destruct (lang_reach r w L B (mkSt bk (w ++ t) []) t eq_refl) as (s' & R1 & _). exact (m1_none_complete _ _ _ _ E R1).
Qed.
Fixpoint unnamed (r : re) : bool :=
  match r with Cat a b | Alt a b => unnamed a && unnamed b | Star _ a => unnamed a | Grp _ _ => false | _ => true end.
Lemma reach_caps : forall r s s', reach r s s' -> unnamed r = true -> caps s' = caps s.
Proof.
  intros r s s' H. induction H as [s|f c t s A F|a b s s1 s2 _ IH1 _ IH2|a b s s1 _ IH|a b s s1 _ IH|g a s|g a s s1 s2 _ IH1 L _ IH2|n a s s1 _ IH|f s F]; intros U; cbn [unnamed] in U; try (apply Bool.andb_true_iff in U as (U1 & U2)); try reflexivity; auto.
  - rewrite IH2, IH1 by assumption. reflexivity.
  - rewrite IH2, IH1 by assumption. reflexivity.
  - discriminate.
Qed.

(** ** split *)
Lemma split_from_skip : forall r w bk cur t, split_from r (length w) bk cur (w ++ t) = split_from r 0 (rev w ++ bk) cur t.
Proof. intros r w. induction w as [|c w IH]; intros bk cur t; [reflexivity|]. cbn [length app split_from rev]. rewrite IH, <- app_assoc. reflexivity. Qed.
Lemma split_none : forall r bk cur c s, m1 r bk (c :: s) = None -> split_from r 0 bk cur (c :: s) = split_from r 0 (c :: bk) (c :: cur) s.
Proof. intros r bk cur c s E. cbn [split_from]. rewrite E. reflexivity. Qed.
Lemma split_hit : forall r bk cur w x, m1 r bk (w ++ ahead x) = Some x -> w <> [] -> split_from r 0 bk cur (w ++ ahead x) = rev cur :: split_from r 0 (rev w ++ bk) [] (ahead x).
Proof.
  intros r bk cur w x E NE. destruct w as [|c w]; [congruence|]. cbn [app] in *. cbn [split_from]. rewrite E.
  replace (length (c :: w ++ ahead x) - length (ahead x)) with (S (length w)) by (cbn [length]; rewrite app_length; lia).
  rewrite split_from_skip. cbn [rev]. rewrite <- app_assoc. reflexivity.
Qed.
Lemma split_over : forall r t bk cur rest, (forall a c b bk, t = a ++ c :: b -> m1 r bk (c :: b ++ rest) = None) -> split_from r 0 bk cur (t ++ rest) = split_from r 0 (rev t ++ bk) (rev t ++ cur) rest.
Proof.
  intros r t. induction t as [|c t IH]; intros bk cur rest H; [reflexivity|]. cbn [app rev]. rewrite split_none by (apply (H [] c t bk eq_refl)).
  rewrite IH by (intros a d b bk' ->; apply (H (c :: a) d b bk' eq_refl)). rewrite <- !app_assoc. reflexivity.
Qed.

(** ** Headings *)
Lemma body_lang : forall w, lang heading_body w <-> heading w.
Proof.
  intros w. unfold heading_body. cbn [seq]. split.
  - intros L. lcat L u1 u2 A. apply lang_chr in A as (c & -> & C). lcat L u3 u4 B. apply lang_star in B. apply lang_chr in L as (d & -> & D). exists c, u3, d. split; [reflexivity|].
    apply none_of_iff in C, D. repeat split.
    + intros ->. apply C. left. reflexivity.
    + intros ->. apply D. left. reflexivity.
    + intros I. rewrite Forall_forall in B. specialize (B _ I). discriminate B.
  - intros (c & u & d & -> & C & D & U). change (c :: u ++ [d]) with ([c] ++ u ++ [d]). constructor; [|constructor].
    + apply lang_chr. exists c. split; [reflexivity|]. apply none_of_iff. change (str "=") with [61%N]. intros [E|[]]. congruence.
    + apply lang_star. apply Forall_forall. intros x I. destruct (N.eqb_spec x nl) as [->|]; [exfalso; exact (U I) | reflexivity].
    + apply lang_chr. exists d. split; [reflexivity|]. apply none_of_iff. change (str "=") with [61%N]. intros [E|[]]. congruence.
Qed.
Lemma heading_lang : forall w, lang HEADING w <-> heading_line w.
Proof.
  intros w. unfold HEADING, heading_line. cbn [seq]. split.
  - intros L. lcat L u1 u2 A. apply lang_ch in A as ->. lcat L u3 u4 B. apply lang_lit in B as ->. lcat L u5 u6 C. apply body_lang in C. lcat L u7 u8 D. apply lang_lit in D as ->. apply lang_ch in L as ->. exists u5. split; [exact C | reflexivity].
  - intros (h & H & ->). constructor; [apply lang_ch; reflexivity|]. constructor; [apply lang_lit; reflexivity|]. constructor; [apply body_lang, H|]. constructor; [apply lang_lit; reflexivity | apply lang_ch; reflexivity].
Qed.
(** The captured heading is the heading. *)
Lemma capture_some : forall bk s x, m1 HEADING_CAPTURE bk s = Some x -> exists h, heading h /\ group 1 x = h /\ s = ([10%N] ++ eqs ++ h ++ eqs ++ [10%N]) ++ ahead x.
Proof.
  intros bk s x E. unfold m1 in E. destruct (m_sound _ _ _ _ E) as (s' & R1 & E1). injection E1 as ->. unfold HEADING_CAPTURE in R1. cbn [seq] in R1.
  inversion R1 as [| |? ? ? s1 ? A1 B1| | | | | |]; subst. inversion B1 as [| |? ? ? s2 ? A2 B2| | | | | |]; subst. inversion B2 as [| |? ? ? s3 ? A3 B3| | | | | |]; subst. inversion B3 as [| |? ? ? s4 ? A4 B4| | | | | |]; subst.
  inversion A3 as [| | | | | | |? ? ? s3' G| ]; subst.
  destruct (reach_text _ _ _ A1) as (w1 & T1 & _ & L1 & _). apply lang_ch in L1 as ->. destruct (reach_text _ _ _ A2) as (w2 & T2 & _ & L2 & _). apply (proj1 (lang_lit eqs _)) in L2 as ->.
  destruct (reach_text _ _ _ G) as (w3 & T3 & _ & L3 & _). apply body_lang in L3. destruct (reach_text _ _ _ A4) as (w4 & T4 & _ & L4 & _). apply (proj1 (lang_lit eqs _)) in L4 as ->. destruct (reach_text _ _ _ B4) as (w5 & T5 & _ & L5 & _). apply lang_ch in L5 as ->.
  cbn [ahead] in T1. exists w3. split; [exact L3|]. split.
  - unfold group, dget_or. rewrite (reach_caps _ _ _ B4 eq_refl), (reach_caps _ _ _ A4 eq_refl). cbn [grab caps dget]. destruct (eq_dec 1 1); [|congruence]. apply taken_app. exact T3.
  - rewrite T1, T2, T3. cbn [grab ahead] in T4. rewrite T4, T5. repeat rewrite <- app_assoc. reflexivity.
Qed.
Lemma both_match : forall bk s, match m1 HEADING bk s, m1 HEADING_CAPTURE bk s with
  | None, None => True
  | Some y, Some x => ahead y = ahead x /\ exists h, heading h /\ group 1 x = h /\ s = ([10%N] ++ eqs ++ h ++ eqs ++ [10%N]) ++ ahead x
  | _, _ => False end.
Proof.
  intros bk s. pose proof (m1_erase HEADING_CAPTURE bk s) as R1. rewrite <- heading_erased in R1. destruct (m1 HEADING_CAPTURE bk s) as [x|] eqn:E, (m1 HEADING bk s) as [y|]; cbn [rel] in R1; try contradiction; [|exact Logic.I].
  split; [destruct R1 as (_ & R1); symmetry; exact R1 | apply capture_some with (bk := bk); exact E].
Qed.

(** ** Every text *)
Lemma free_cons : forall bk c t rest, m1 HEADING bk (c :: t ++ rest) = None -> free t -> free (c :: t).
Proof.
  intros bk c t rest E F w L (u & v & K). destruct u as [|d u]; cbn [app] in K.
  - apply (m1_blind HEADING w (v ++ rest) bk eq_refl); [apply heading_lang, L|]. rewrite app_assoc, <- K. exact E.
  - injection K as _ K. apply (F w L). exists u, v. exact K.
Qed.
Lemma free_nil : free [].
Proof. intros w (h & _ & ->) (u & v & E). destruct u; discriminate E. Qed.
Lemma sections_any : forall s bk cur, exists lead bodies hs, split_from HEADING 0 bk cur s = (rev cur ++ lead) :: bodies /\
  map (fun g => group 1 (snd g)) (finditer_from HEADING_CAPTURE 0 bk s) = hs /\ length hs = length bodies /\ Forall heading hs /\ Forall free (lead :: bodies) /\ s = lead ++ concat (map mark (combine hs bodies)).
Proof.
  intros s. remember (length s) as n eqn:N0. assert (LN : length s <= n) by lia. clear N0. revert s LN. induction n as [|n IH]; intros [|c s] LN bk cur; cbn in LN; try lia.
  - exists [], [], []. cbn. rewrite app_nil_r. repeat split; constructor; [exact free_nil | constructor].
  - exists [], [], []. cbn. rewrite app_nil_r. repeat split; constructor; [exact free_nil | constructor].
  - pose proof (both_match bk (c :: s)) as B. destruct (m1 HEADING bk (c :: s)) as [y|] eqn:E, (m1 HEADING_CAPTURE bk (c :: s)) as [x|] eqn:E'; try contradiction.
    + destruct B as (AH & h & H & G & T). set (w := [10%N] ++ eqs ++ h ++ eqs ++ [10%N]) in *. assert (NW : w <> []) by discriminate.
      assert (LA : length (ahead x) <= n). { assert (LT : length (c :: s) = length (w ++ ahead x)) by (rewrite T; reflexivity). rewrite app_length in LT. cbn [length] in LT. assert (length w <> 0) by (destruct w; [congruence | discriminate]). lia. }
      destruct (IH (ahead x) LA (rev w ++ bk) []) as (lead & bodies & hs & S1 & S2 & S3 & S4 & S5 & S6).
      exists [], (lead :: bodies), (h :: hs). rewrite T in E, E'. rewrite <- AH in E. rewrite T. split; [|split; [|split; [|split; [|split]]]].
      * rewrite <- AH. rewrite split_hit by assumption. rewrite app_nil_r, AH, S1. reflexivity.
      * rewrite finditer_hit by assumption. cbn [map snd]. rewrite G, S2. reflexivity.
      * cbn [length]. rewrite S3. reflexivity.
      * constructor; assumption.
      * constructor; [exact free_nil | exact S5].
      * cbn [combine map concat app]. rewrite S6 at 1. unfold mark at 2. cbn [fst snd]. unfold w. repeat rewrite <- app_assoc. reflexivity.
    + destruct (IH s ltac:(lia) (c :: bk) (c :: cur)) as (lead & bodies & hs & S1 & S2 & S3 & S4 & S5 & S6). exists (c :: lead), bodies, hs. split; [|split; [|split; [|split; [|split]]]]; try assumption.
      * rewrite split_none by exact E. rewrite S1. cbn [rev]. rewrite <- app_assoc. reflexivity.
      * rewrite finditer_none by exact E'. exact S2.
      * inversion S5; subst. constructor; [|assumption]. eapply free_cons; [|eassumption]. rewrite <- S6. exact E.
      * cbn [app]. f_equal. exact S6.
Qed.

(** ** Texts of sections *)
Lemma heading_none : forall t rest, no_sections t -> rest = [] \/ (exists r, rest = 10%N :: r) -> forall a c b bk, t = a ++ c :: b -> m1 HEADING bk (c :: b ++ rest) = None.
Proof.
  intros t rest H R1 a c b bk E. apply m1_none. intros w z K L. apply heading_lang in L as (h & (c1 & u & d & -> & C & _) & ->). change eqs with [61; 61]%N in K. cbn [app] in K. injection K as -> K.
  destruct b as [|x [|y b]]; cbn [app] in K.
  - destruct R1 as [->|(r & ->)]; discriminate K.
  - injection K as -> K. destruct R1 as [->|(r & ->)]; discriminate K.
  - injection K as -> -> K. destruct (H a b) as (b' & ->); [exact E|]. cbn [app] in K. injection K as <- _. congruence.
Qed.
Lemma heading_hit : forall h rest bk, heading h -> ~ In 10%N h -> begins (eqs ++ [10%N]) rest = false -> exists x, m1 HEADING bk (([10%N] ++ eqs ++ h ++ eqs ++ [10%N]) ++ rest) = Some x /\ ahead x = rest.
Proof.
  intros h rest bk (c & u & d & -> & C & D & U) NL B. unfold m1, HEADING, heading_body. cbn [seq]. rewrite m_cat. change (([10%N] ++ eqs ++ (c :: u ++ [d]) ++ eqs ++ [10%N]) ++ rest) with (10%N :: (eqs ++ (c :: u ++ [d]) ++ eqs ++ [10%N]) ++ rest).
  rewrite ch_ok, m_cat. rewrite <- app_assoc, lit_ok, m_cat, m_cat. assert (N61 : forall z, z <> 61%N -> negb (memb z (str "=")) = true) by (intros z Z; apply none_of_iff; change (str "=") with [61%N]; intros [K|[]]; congruence).
  cbn [app]. unfold none_of. rewrite chr_ok by (apply N61, C). rewrite m_cat. replace (((u ++ [d]) ++ eqs ++ [10%N]) ++ rest) with (u ++ [d; 61; 61]%N ++ 10%N :: rest) by (repeat rewrite <- app_assoc; reflexivity).
  eexists. split.
  - unfold many, dot. apply (greedy_first _ u [d; 61; 61]%N (10%N :: rest)).
    + apply Forall_forall. intros z I. destruct (N.eqb_spec z nl) as [->|]; [exfalso; exact (U I) | reflexivity].
    + repeat constructor. destruct (N.eqb_spec d nl) as [->|]; [|reflexivity]. exfalso. apply NL. right. apply in_or_app. right. left. reflexivity.
    + reflexivity.
    + intros p q E NE. destruct p as [|p1 [|p2 [|p3 [|p4 p]]]]; cbn [app] in E; try congruence.
      * injection E as _ <-. apply chr_fail. reflexivity.
      * injection E as _ _ <-. apply chr_fail. reflexivity.
      * injection E as _ _ _ <-. cbn [app]. rewrite chr_ok by reflexivity. rewrite m_cat. destruct (begins eqs rest) eqn:B2; [|apply lit_fail; exact B2].
        apply begins_iff in B2 as (t & ->). rewrite lit_ok. apply ch_fail. destruct t as [|z t]; [reflexivity|]. cbn [begins]. destruct (N.eqb_spec nl z) as [<-|]; [discriminate B | reflexivity].
    + cbn [app]. rewrite chr_ok by (apply N61, D). rewrite m_cat. change (61%N :: 61%N :: 10%N :: rest) with (str "==" ++ 10%N :: rest). rewrite lit_ok, ch_ok. reflexivity.
  - reflexivity.
Qed.
Definition more_of (hbs : list (pystr * pystr)) : pystr := concat (map mark hbs).
Lemma more_start : forall hbs, more_of hbs = [] \/ exists r, more_of hbs = 10%N :: r.
Proof. intros [|[h b] hbs]; [left; reflexivity|]. right. unfold more_of. cbn [map concat]. eexists. reflexivity. Qed.
Lemma body_start : forall b rest, no_sections (10%N :: b) -> rest = [] \/ (exists r, rest = 10%N :: r) -> begins (eqs ++ [10%N]) (b ++ rest) = false.
Proof.
  intros b rest H R1. destruct (begins (eqs ++ [10%N]) (b ++ rest)) eqn:B; [exfalso|reflexivity]. apply begins_iff in B as (t & B). change eqs with [61; 61]%N in B. cbn [app] in B. destruct b as [|x [|y b]]; cbn [app] in B.
  - destruct R1 as [->|(r & ->)]; discriminate B.
  - injection B as -> B. destruct R1 as [->|(r & ->)]; discriminate B.
  - injection B as -> -> B. destruct (H [] b eq_refl) as (b' & ->). discriminate B.
Qed.
Lemma no_sections_tail : forall c t, no_sections (c :: t) -> no_sections t.
Proof. intros c t H a b ->. apply (H (c :: a) b). reflexivity. Qed.
Lemma sections_read : forall hbs, Forall good_section hbs -> forall lead bk cur, no_sections lead ->
  split_from HEADING 0 bk cur (lead ++ more_of hbs) = (rev cur ++ lead) :: map snd hbs /\ map (fun g => group 1 (snd g)) (finditer_from HEADING_CAPTURE 0 bk (lead ++ more_of hbs)) = map fst hbs.
Proof.
  intros hbs F. induction F as [|[h b] hbs (H & NL & NS) F IH]; intros lead bk cur NLd; cbn [fst snd] in *.
  - assert (Q : forall a c d bk', lead = a ++ c :: d -> m1 HEADING bk' (c :: d ++ []) = None) by (apply heading_none; [exact NLd | left; reflexivity]). unfold more_of. cbn [map concat]. split.
    + rewrite split_over by exact Q. cbn [split_from]. rewrite rev_app_distr, rev_involutive. reflexivity.
    + rewrite finditer_over; [reflexivity|]. intros a c d bk' E. specialize (Q a c d bk' E). pose proof (both_match bk' (c :: d ++ [])) as B. rewrite Q in B. destruct (m1 HEADING_CAPTURE bk' (c :: d ++ [])); [contradiction | reflexivity].
  - assert (Q : forall a c d bk', lead = a ++ c :: d -> m1 HEADING bk' (c :: d ++ more_of ((h, b) :: hbs)) = None) by (apply heading_none; [exact NLd | apply more_start]).
    set (w := [10%N] ++ eqs ++ h ++ eqs ++ [10%N]). assert (ME : more_of ((h, b) :: hbs) = w ++ b ++ more_of hbs) by (unfold more_of, w, mark; cbn [map concat fst snd]; repeat rewrite <- app_assoc; reflexivity).
    rewrite split_over by exact Q. rewrite finditer_over by (intros a c d bk' E; specialize (Q a c d bk' E); pose proof (both_match bk' (c :: d ++ more_of ((h, b) :: hbs))) as B; rewrite Q in B; destruct (m1 HEADING_CAPTURE bk' (c :: d ++ more_of ((h, b) :: hbs))); [contradiction | reflexivity]).
    rewrite ME. set (bk2 := rev lead ++ bk). destruct (heading_hit h (b ++ more_of hbs) bk2 H NL) as (y & M & AH); [apply body_start; [exact NS | apply more_start]|]. fold w in M.
    pose proof (both_match bk2 (w ++ b ++ more_of hbs)) as B. rewrite M in B. destruct (m1 HEADING_CAPTURE bk2 (w ++ b ++ more_of hbs)) as [x|] eqn:M'; [|contradiction]. destruct B as (AX & h' & H' & G & T).
    assert (Hh : h' = h).
    { rewrite <- AX, AH in T. unfold w in T. apply app_inv_tail in T. cbn [app] in T. injection T as T. apply app_inv_tail in T. congruence. }
    rewrite Hh in G. clear H' T Hh. rewrite AH in AX. destruct (IH b (rev w ++ bk2) [] (no_sections_tail _ _ NS)) as (I1 & I2). split.
    + rewrite <- AH at 1. rewrite <- AH in M. rewrite split_hit by (try exact M; discriminate). rewrite AH, I1. cbn [map snd rev app]. rewrite rev_app_distr, rev_involutive. reflexivity.
    + rewrite AX at 1. rewrite AX in M'. rewrite finditer_hit by (try exact M'; discriminate). cbn [map snd fst]. rewrite G, <- AX, I2. reflexivity.
Qed.
