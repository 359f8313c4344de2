(** Facts about the matcher of Regex_Model.v. *)
From Verif Require Import Base Str Tfidf_Spec Regex_Model Wiki_Spec.
Local Open Scope nat_scope.

(** ** What a pattern can do, in any order *)
Inductive reach : re -> st -> st -> Prop :=
| R_eps : forall s, reach Eps s s
| R_chr : forall (f : N -> bool) c t s, ahead s = c :: t -> f c = true -> reach (Chr f) s (step c t s)
| R_cat : forall a b s s' s'', reach a s s' -> reach b s' s'' -> reach (Cat a b) s s''
| R_altl : forall a b s s', reach a s s' -> reach (Alt a b) s s'
| R_altr : forall a b s s', reach b s s' -> reach (Alt a b) s s'
| R_star0 : forall g a s, reach (Star g a) s s
| R_starS : forall g a s s' s'', reach a s s' -> length (ahead s') < length (ahead s) -> reach (Star g a) s' s'' -> reach (Star g a) s s''
| R_grp : forall n a s s', reach a s s' -> reach (Grp n a) s (grab n s s')
| R_look : forall f s, f (back s) (ahead s) = true -> reach (Look f) s s.

Lemma m_sound : forall {R} r s (k : st -> option R) x, m r s k = Some x -> exists s', reach r s s' /\ k s' = Some x.
Proof.
  intros R. induction r as [|f|a IHa b IHb|a IHa b IHb|g a IHa|n a IHa|f]; intros s k x E; cbn [m] in E.
  - exists s. split; [constructor | exact E].
  - destruct (ahead s) as [|c t] eqn:A; [discriminate|]. destruct (f c) eqn:F; [|discriminate]. exists (step c t s). split; [constructor; assumption | exact E].
  - destruct (IHa _ _ _ E) as (s1 & R1 & E1). destruct (IHb _ _ _ E1) as (s2 & R2 & E2). exists s2. split; [econstructor; eassumption | exact E2].
  - destruct (m a s k) as [y|] eqn:A.
    + injection E as <-. destruct (IHa _ _ _ A) as (s1 & R1 & E1). exists s1. split; [apply R_altl; exact R1 | exact E1].
    + destruct (IHb _ _ _ E) as (s1 & R1 & E1). exists s1. split; [apply R_altr; exact R1 | exact E1].
  - revert E. generalize (length (ahead s)) as n. intros n. revert s x. induction n as [|n IHn]; intros s x E; cbn [iter] in E.
    + assert (K : k s = Some x) by (destruct g; [exact E | destruct (k s); [exact E | discriminate]]). exists s. split; [constructor | exact K].
    + destruct g.
      * match type of E with match ?M with _ => _ end = _ => destruct M as [y|] eqn:A end.
        -- injection E as <-. destruct (IHa _ _ _ A) as (s1 & R1 & E1). destruct (length (ahead s1) <? length (ahead s)) eqn:L; [|discriminate].
           destruct (IHn _ _ E1) as (s2 & R2 & E2). exists s2. split; [|exact E2]. apply (R_starS _ _ _ s1); [exact R1 | apply Nat.ltb_lt, L | exact R2].
        -- exists s. split; [constructor | exact E].
      * destruct (k s) as [y|] eqn:K.
        -- injection E as <-. exists s. split; [constructor | exact K].
        -- destruct (IHa _ _ _ E) as (s1 & R1 & E1). destruct (length (ahead s1) <? length (ahead s)) eqn:L; [|discriminate].
           destruct (IHn _ _ E1) as (s2 & R2 & E2). exists s2. split; [|exact E2]. apply (R_starS _ _ _ s1); [exact R1 | apply Nat.ltb_lt, L | exact R2].
  - destruct (IHa _ _ _ E) as (s1 & R1 & E1). exists (grab n s s1). split; [constructor; exact R1 | exact E1].
  - destruct (f (back s) (ahead s)) eqn:F; [|discriminate]. exists s. split; [constructor; exact F | exact E].
Qed.
Lemma m_complete : forall {R} r s (k : st -> option R), m r s k = None -> forall s', reach r s s' -> k s' = None.
Proof.
  intros R. induction r as [|f|a IHa b IHb|a IHa b IHb|g a IHa|n a IHa|f]; intros s k E s' Rc; cbn [m] in E.
  - inversion Rc; subst. exact E.
  - inversion Rc; subst. match goal with H : ahead s = _ |- _ => rewrite H in E end. match goal with H : f _ = true |- _ => rewrite H in E end. exact E.
  - inversion Rc; subst. match goal with A : reach a s ?s1, B : reach b ?s1 s' |- _ => exact (IHb _ _ (IHa _ _ E _ A) _ B) end.
  - destruct (m a s k) eqn:A; [discriminate|]. inversion Rc; subst; [eapply IHa; eassumption | eapply IHb; eassumption].
  - remember (Star g a) as r0 eqn:R0. assert (L : length (ahead s) <= length (ahead s)) by lia. revert L E. generalize (length (ahead s)) at 2 3 as n. intros n L E. revert n L E.
    induction Rc as [| | | | |g' a' s|g' a' s s1 s2 R1 _ L1 R2 IHR| |]; try discriminate; intros n L E; injection R0 as -> ->.
    + destruct n as [|n]; cbn [iter] in E; destruct g.
      * exact E.
      * destruct (k s); [discriminate | reflexivity].
      * match type of E with match ?M with _ => _ end = _ => destruct M; [discriminate | exact E] end.
      * destruct (k s); [discriminate | reflexivity].
    + destruct n as [|n]; [lia|]. cbn [iter] in E.
      assert (E1 : m a s (fun s' => if length (ahead s') <? length (ahead s) then iter (m a) g n s' k else None) = None)
        by (destruct g; [match type of E with match ?M with _ => _ end = _ => destruct M; [discriminate | reflexivity] end | destruct (k s); [discriminate | exact E]]).
      pose proof (IHa _ _ E1 _ R1) as E2. cbn beta in E2. assert (T : (length (ahead s1) <? length (ahead s)) = true) by (apply Nat.ltb_lt; exact L1). rewrite T in E2.
      apply (IHR eq_refl n); [lia | exact E2].
  - inversion Rc; subst. match goal with A : reach a s ?s1 |- _ => exact (IHa _ _ E _ A) end.
  - inversion Rc; subst. match goal with H : f _ _ = true |- _ => rewrite H in E end. exact E.
Qed.

(** ** The texts of a pattern *)
Inductive lang : re -> pystr -> Prop :=
| L_eps : lang Eps []
| L_chr : forall (f : N -> bool) c, f c = true -> lang (Chr f) [c]
| L_cat : forall a b u v, lang a u -> lang b v -> lang (Cat a b) (u ++ v)
| L_altl : forall a b u, lang a u -> lang (Alt a b) u
| L_altr : forall a b u, lang b u -> lang (Alt a b) u
| L_star0 : forall g a, lang (Star g a) []
| L_starS : forall g a u v, lang a u -> u <> [] -> lang (Star g a) v -> lang (Star g a) (u ++ v)
| L_grp : forall n a u, lang a u -> lang (Grp n a) u
| L_look : forall f, lang (Look f) [].

Lemma taken_app : forall s s' w, ahead s = w ++ ahead s' -> taken s s' = w.
Proof. intros s s' w E. unfold taken. rewrite E, app_length. replace (length w + length (ahead s') - length (ahead s')) with (length w + 0) by lia. rewrite firstn_app_2. cbn. apply app_nil_r. Qed.
Lemma infix_app : forall g u v w, infix g v -> infix g (u ++ v ++ w).
Proof. intros g u v w (a & b & ->). exists (u ++ a), (b ++ w). repeat rewrite <- app_assoc. reflexivity. Qed.
Lemma reach_text : forall r s s', reach r s s' -> exists w, ahead s = w ++ ahead s' /\ back s' = rev w ++ back s /\ lang r w /\
  (forall n g, In (n, g) (caps s') -> In (n, g) (caps s) \/ infix g w).
Proof.
  intros r s s' H. induction H as [s|f c t s A F|a b s s1 s2 _ IH1 _ IH2|a b s s1 _ IH|a b s s1 _ IH|g a s|g a s s1 s2 _ IH1 L _ IH2|n a s s1 _ IH|f s F].
  - exists []. repeat split; [constructor | auto].
  - exists [c]. repeat split; [exact A | constructor; exact F | auto].
  - destruct IH1 as (w1 & A1 & B1 & L1 & C1). destruct IH2 as (w2 & A2 & B2 & L2 & C2). exists (w1 ++ w2). repeat split.
    + rewrite A1, A2. apply app_assoc.
    + rewrite B2, B1, rev_app_distr. apply app_assoc.
    + constructor; assumption.
    + intros n g G. destruct (C2 n g G) as [G1|I1]; [destruct (C1 n g G1) as [G2|I2]; [left; exact G2|]|]; right.
      * apply (infix_app g [] w1 w2 I2).
      * rewrite <- (app_nil_r (w1 ++ w2)), <- app_assoc. apply infix_app. exact I1.
  - destruct IH as (w & A & B & L & C). exists w. repeat split; auto. apply L_altl. exact L.
  - destruct IH as (w & A & B & L & C). exists w. repeat split; auto. apply L_altr. exact L.
  - exists []. repeat split; [constructor | auto].
  - destruct IH1 as (w1 & A1 & B1 & L1 & C1). destruct IH2 as (w2 & A2 & B2 & L2 & C2). exists (w1 ++ w2). repeat split.
    + rewrite A1, A2. apply app_assoc.
    + rewrite B2, B1, rev_app_distr. apply app_assoc.
    + constructor; try assumption. intros ->. rewrite A1 in L. cbn in L. lia.
    + intros n g' G. destruct (C2 n g' G) as [G1|I1]; [destruct (C1 n g' G1) as [G2|I2]; [left; exact G2|]|]; right.
      * apply (infix_app g' [] w1 w2 I2).
      * rewrite <- (app_nil_r (w1 ++ w2)), <- app_assoc. apply infix_app. exact I1.
  - destruct IH as (w & A & B & L & C). exists w. cbn [grab ahead back caps]. repeat split; auto; [constructor; exact L|].
    intros n0 g [G|G]; [|apply C, G]. right. injection G as <- <-. rewrite (taken_app s s1 w A). exists [], []. rewrite app_nil_r. reflexivity.
  - exists []. repeat split; [constructor | auto].
Qed.

(** ** One match *)
Lemma m1_some : forall r bk s x, m1 r bk s = Some x -> exists w, s = w ++ ahead x /\ lang r w /\ (forall n, group n x = [] \/ infix (group n x) w).
Proof.
  intros r bk s x E. unfold m1 in E. destruct (m_sound _ _ _ _ E) as (s' & R1 & E1). injection E1 as ->. destruct (reach_text _ _ _ R1) as (w & A & _ & L & C).
  cbn [ahead caps] in *. exists w. repeat split; [exact A | exact L|]. intros n. unfold group, dget_or. destruct (dget (caps x) n) as [g|] eqn:D; [|left; reflexivity].
  right. assert (G : In (n, g) (caps x)) by (apply dget_In; exact D). destruct (C n g G) as [[]|I]; exact I.
Qed.
Lemma m1_none : forall r bk s, (forall w t, s = w ++ t -> ~ lang r w) -> m1 r bk s = None.
Proof. intros r bk s H. destruct (m1 r bk s) as [x|] eqn:E; [|reflexivity]. destruct (m1_some _ _ _ _ E) as (w & A & L & _). destruct (H _ _ A L). Qed.
Lemma m1_none_complete : forall r bk s s', m1 r bk s = None -> ~ reach r (mkSt bk s []) s'.
Proof. intros r bk s s' E R1. pose proof (m_complete _ _ _ E _ R1). discriminate. Qed.

(** ** Substitution *)
Lemma sub_from_skip : forall r rep w bk t, sub_from r rep (length w) bk (w ++ t) = sub_from r rep 0 (rev w ++ bk) t.
Proof. intros r rep w. induction w as [|c w IH]; intros bk t; [reflexivity|]. cbn [length app sub_from rev]. rewrite IH, <- app_assoc. reflexivity. Qed.
Lemma sub_none : forall r rep bk c s, m1 r bk (c :: s) = None -> sub_from r rep 0 bk (c :: s) = c :: sub_from r rep 0 (c :: bk) s.
Proof. intros r rep bk c s E. cbn [sub_from]. rewrite E. reflexivity. Qed.
Lemma sub_hit : forall r rep bk w x, m1 r bk (w ++ ahead x) = Some x -> w <> [] -> sub_from r rep 0 bk (w ++ ahead x) = rep x ++ sub_from r rep 0 (rev w ++ bk) (ahead x).
Proof.
  intros r rep bk w x E NE. destruct w as [|c w]; [congruence|]. cbn [app] in *. cbn [sub_from]. rewrite E.
  replace (length (c :: w ++ ahead x) - length (ahead x)) with (S (length w)) by (cbn [length]; rewrite app_length; lia).
  rewrite sub_from_skip. cbn [rev]. rewrite <- app_assoc. reflexivity.
Qed.
(** Every result of [sub] is built from characters that stay and matches that are replaced. *)
Lemma sub_cases : forall r rep (P : pystr -> pystr -> Prop),
  P [] [] ->
  (forall bk c s u, (m1 r bk (c :: s) = None \/ exists x, m1 r bk (c :: s) = Some x /\ ahead x = c :: s) -> P s u -> P (c :: s) (c :: u)) ->
  (forall bk w x u, m1 r bk (w ++ ahead x) = Some x -> w <> [] -> lang r w -> (forall n, group n x = [] \/ infix (group n x) w) -> P (ahead x) u -> P (w ++ ahead x) (rep x ++ u)) ->
  forall s bk, P s (sub_from r rep 0 bk s).
Proof.
  intros r rep P P0 P1 P2 s. remember (length s) as n eqn:N0. assert (LN : length s <= n) by lia. clear N0. revert s LN.
  induction n as [|n IH]; intros [|c s] LN bk; cbn in LN; try lia; try exact P0.
  destruct (m1 r bk (c :: s)) as [x|] eqn:E.
  - destruct (m1_some _ _ _ _ E) as (w & A & L & G). destruct w as [|d w].
    + cbn [app] in A. cbn [sub_from]. rewrite E, <- A. rewrite Nat.sub_diag. apply (P1 bk); [right; exists x; split; [exact E | symmetry; exact A]|]. apply IH. lia.
    + rewrite A in *. rewrite (sub_hit r rep bk (d :: w) x E) by discriminate. apply (P2 bk); try assumption; [discriminate|].
      apply IH. assert (LA : length (c :: s) = length ((d :: w) ++ ahead x)) by (rewrite A; reflexivity). cbn in LA. rewrite app_length in LA. lia.
  - rewrite sub_none by exact E. apply (P1 bk); [left; exact E | apply IH; lia].
Qed.

(** ** Subsequences *)
Lemma subseq_refl : forall {A} (a : list A), subseq a a.
Proof. intros A a. induction a; constructor; assumption. Qed.
Lemma subseq_app : forall {A} (a b c d : list A), subseq a b -> subseq c d -> subseq (a ++ c) (b ++ d).
Proof.
  intros A a b c d H. revert c d. induction H as [l|x a b H IH|x a b H IH]; intros c d K; cbn [app].
  - induction l as [|y l IH]; cbn [app]; [exact K | constructor; exact IH].
  - constructor. apply IH, K.
  - constructor. apply IH, K.
Qed.
Lemma subseq_infix : forall g w, infix g w -> subseq g w.
Proof. intros g w (u & v & ->). rewrite <- (app_nil_r g) at 1. change (g ++ []) with ([] ++ g ++ []). apply subseq_app; [constructor | apply subseq_app; [apply subseq_refl | constructor]]. Qed.
Lemma subseq_In : forall {A} (a b : list A) x, subseq a b -> In x a -> In x b.
Proof. intros A a b x H. induction H as [l|y a b H IH|y a b H IH]; intros I; [destruct I | destruct I as [->|I]; [left; reflexivity | right; auto] | right; auto]. Qed.
Lemma subseq_filter2 : forall {A} (f : A -> bool) a b, subseq a b -> subseq (filter f a) (filter f b).
Proof. intros A f a b H. induction H as [l|x a b H IH|x a b H IH]; cbn [filter]; [constructor | destruct (f x); [constructor|]; exact IH | destruct (f x); [constructor|]; exact IH]. Qed.
Lemma subseq_trans2 : forall {A} (a b c : list A), subseq a b -> subseq b c -> subseq a c.
Proof.
  intros A a b c H K. revert a H. induction K as [l|x b c K IH|x b c K IH]; intros a H.
  - inversion H; subst. constructor.
  - inversion H; subst; constructor; apply IH; assumption.
  - constructor. apply IH, H.
Qed.
Lemma subseq_length : forall {A} (a b : list A), subseq a b -> length a <= length b.
Proof. intros A a b H. induction H; cbn; lia. Qed.

(** What is replaced by parts of itself, or by characters that [f] does not look at, does not add to what [f] sees. *)
Lemma sub_sees : forall (f : N -> bool) r rep, (forall x w, (forall n, group n x = [] \/ infix (group n x) w) -> subseq (filter f (rep x)) (filter f w)) ->
  forall s bk, subseq (filter f (sub_from r rep 0 bk s)) (filter f s).
Proof.
  intros f r rep H s bk. apply (sub_cases r rep (fun s u => subseq (filter f u) (filter f s))).
  - constructor.
  - intros _ c t u _ IH. cbn [filter]. destruct (f c); [constructor|]; exact IH.
  - intros _ w x u _ _ _ G IH. rewrite 2 filter_app. apply subseq_app; [apply H, G | exact IH].
Qed.
Lemma sub_shorter : forall r rep, (forall x w, w <> [] -> (forall n, group n x = [] \/ infix (group n x) w) -> length (rep x) <= length w) ->
  forall s bk, length (sub_from r rep 0 bk s) <= length s.
Proof.
  intros r rep H s bk. apply (sub_cases r rep (fun s u => length u <= length s)).
  - cbn. lia.
  - intros _ c t u _ IH. cbn. lia.
  - intros _ w x u _ NE _ G IH. rewrite 2 app_length. specialize (H x w NE G). lia.
Qed.
Lemma sub_same : forall r rep s bk, (forall a w b, s = a ++ w ++ b -> w <> [] -> ~ lang r w) -> sub_from r rep 0 bk s = s.
Proof.
  intros r rep s bk H. revert bk. assert (Q : forall n t bk, length t <= n -> (exists a, s = a ++ t) -> sub_from r rep 0 bk t = t).
  { induction n as [|n IH]; intros [|c t] bk L (a & E); cbn in L; try lia; try reflexivity.
    assert (T : sub_from r rep 0 (c :: bk) t = t) by (apply IH; [lia | exists (a ++ [c]); rewrite E, <- app_assoc; reflexivity]).
    destruct (m1 r bk (c :: t)) as [x|] eqn:M.
    - destruct (m1_some _ _ _ _ M) as (w & A & Lw & _). destruct w as [|d w].
      + cbn [app] in A. cbn [sub_from]. rewrite M, <- A, Nat.sub_diag. f_equal. exact T.
      + exfalso. apply (H a (d :: w) (ahead x)); [rewrite E, A; reflexivity | discriminate | exact Lw].
    - rewrite sub_none by exact M. f_equal. exact T. }
  intros bk. apply (Q (length s)); [lia | exists []; reflexivity].
Qed.

(** ** str.replace *)
Lemma begins_iff : forall p s, begins p s = true <-> exists t, s = p ++ t.
Proof.
  induction p as [|a p IH]; intros s; cbn [begins app]; [split; [intros _; exists s; reflexivity | reflexivity]|].
  destruct s as [|b s]; [split; [discriminate | intros (t & E); discriminate]|].
  rewrite Bool.andb_true_iff, N.eqb_eq, IH. split; [intros (-> & t & ->); exists t; reflexivity | intros (t & E); injection E as -> ->; split; [reflexivity | exists t; reflexivity]].
Qed.
Lemma replace_from_skip : forall old new w t, replace_from old new (length w) (w ++ t) = replace_from old new 0 t.
Proof. intros old new w t. induction w as [|c w IH]; [reflexivity | exact IH]. Qed.
Lemma replace_cases : forall old new (P : pystr -> pystr -> Prop), old <> [] ->
  P [] [] -> (forall c s u, begins old (c :: s) = false -> P s u -> P (c :: s) (c :: u)) -> (forall s u, P s u -> P (old ++ s) (new ++ u)) ->
  forall s, P s (replace old new s).
Proof.
  intros old new P NE P0 P1 P2 s. unfold replace. remember (length s) as n eqn:N0. assert (LN : length s <= n) by lia. clear N0. revert s LN.
  induction n as [|n IH]; intros [|c s] LN; cbn in LN; try lia; try exact P0.
  cbn [replace_from]. destruct (begins old (c :: s)) eqn:B.
  - apply begins_iff in B as (t & E). destruct old as [|d old]; [congruence|]. cbn [app] in E. injection E as <- E. rewrite E.
    replace (length (c :: old) - 1) with (length old) by (cbn; lia). rewrite replace_from_skip. apply (P2 t). apply IH.
    assert (L : length s = length (old ++ t)) by (rewrite E; reflexivity). rewrite app_length in L. lia.
  - apply P1; [exact B | apply IH; lia].
Qed.
Lemma replace_sees : forall (f : N -> bool) old new, old <> [] -> subseq (filter f new) (filter f old) -> forall s, subseq (filter f (replace old new s)) (filter f s).
Proof.
  intros f old new NE H s. apply (replace_cases old new (fun s u => subseq (filter f u) (filter f s)) NE).
  - constructor.
  - intros c t u _ IH. cbn [filter]. destruct (f c); [constructor|]; exact IH.
  - intros t u IH. rewrite 2 filter_app. apply subseq_app; assumption.
Qed.
Lemma replace_shorter : forall old new, old <> [] -> length new <= length old -> forall s, length (replace old new s) <= length s.
Proof.
  intros old new NE H s. apply (replace_cases old new (fun s u => length u <= length s) NE).
  - cbn. lia.
  - intros c t u _ IH. cbn. lia.
  - intros t u IH. rewrite 2 app_length. lia.
Qed.
Lemma replace_same : forall old new s, old <> [] -> ~ infix old s -> replace old new s = s.
Proof.
  intros old new s NE. unfold replace. induction s as [|c s IH]; intros H; [reflexivity|]. cbn [replace_from]. destruct (begins old (c :: s)) eqn:B.
  - exfalso. apply begins_iff in B as (t & E). apply H. exists [], t. exact E.
  - f_equal. apply IH. intros (u & v & ->). apply H. exists (c :: u), v. reflexivity.
Qed.
Lemma replace1_hit : forall old new a b, (forall a1 a2, a = a1 ++ a2 -> a2 <> [] -> begins old (a2 ++ old ++ b) = false) ->
  replace1 old new (a ++ old ++ b) = a ++ new ++ b.
Proof.
  intros old new a b. induction a as [|c a IH]; intros H.
  - cbn [app]. assert (B : begins old (old ++ b) = true) by (apply begins_iff; exists b; reflexivity). destruct (old ++ b) as [|d s] eqn:E; cbn [replace1]; rewrite B; rewrite <- E, skipn_app, skipn_all, Nat.sub_diag; reflexivity.
  - pose proof (H [] (c :: a) eq_refl) as B. cbn [app] in B. cbn [app replace1]. rewrite B by discriminate. f_equal. apply IH. intros a1 a2 -> NE. apply (H (c :: a1) a2 eq_refl NE).
Qed.
Lemma replace1_shorter : forall old new s, length new <= length old -> length (replace1 old new s) <= length s.
Proof.
  intros old new s H. induction s as [|c s IH]; cbn [replace1].
  - destruct (begins old []) eqn:B; [|cbn; lia]. apply begins_iff in B as (t & E). symmetry in E. apply app_eq_nil in E as (-> & ->). destruct new; cbn in *; lia.
  - destruct (begins old (c :: s)) eqn:B; [|cbn; lia]. apply begins_iff in B as (t & E). rewrite E, skipn_app, skipn_all, Nat.sub_diag. cbn [app skipn]. rewrite 2 app_length. lia.
Qed.

(** ** The texts of common parts *)
Lemma lang_chr : forall f w, lang (Chr f) w <-> exists c, w = [c] /\ f c = true.
Proof. intros f w. split; [intros H; inversion H; subst; eauto | intros (c & -> & F); constructor; exact F]. Qed.
Lemma lang_ch : forall c w, lang (ch c) w <-> w = [c].
Proof. intros c w. unfold ch. rewrite lang_chr. split; [intros (d & -> & E); apply N.eqb_eq in E; congruence | intros ->; exists c; split; [reflexivity | apply N.eqb_refl]]. Qed.
Lemma lang_cat : forall a b w, lang (Cat a b) w <-> exists u v, w = u ++ v /\ lang a u /\ lang b v.
Proof. intros a b w. split; [intros H; inversion H; subst; eauto 6 | intros (u & v & -> & A & B); constructor; assumption]. Qed.
Lemma lang_alt : forall a b w, lang (Alt a b) w <-> lang a w \/ lang b w.
Proof. intros a b w. split; [intros H; inversion H; subst; auto | intros [H|H]; [apply L_altl | apply L_altr]; exact H]. Qed.
Lemma lang_grp : forall n a w, lang (Grp n a) w <-> lang a w.
Proof. intros n a w. split; [intros H; inversion H; subst; assumption | constructor; assumption]. Qed.
Lemma lang_eps : forall w, lang Eps w <-> w = [].
Proof. intros w. split; [intros H; inversion H; reflexivity | intros ->; constructor]. Qed.
Lemma lang_lookw : forall f w, lang (Look f) w <-> w = [].
Proof. intros f w. split; [intros H; inversion H; reflexivity | intros ->; constructor]. Qed.
Lemma lang_lit : forall s w, lang (lit s) w <-> w = s.
Proof.
  induction s as [|c s IH]; intros w; cbn [lit]; [apply lang_eps|]. destruct s as [|d s]; [apply lang_ch|].
  rewrite lang_cat. split.
  - intros (u & v & -> & A & B). apply lang_ch in A as ->. apply IH in B as ->. reflexivity.
  - intros ->. exists [c], (d :: s). repeat split; [apply lang_ch; reflexivity | apply IH; reflexivity].
Qed.
Lemma lang_star : forall g f w, lang (Star g (Chr f)) w <-> Forall (fun c => f c = true) w.
Proof.
  intros g f w. split.
  - intros H. remember (Star g (Chr f)) as r eqn:E. induction H; try discriminate; injection E as -> ->; [constructor|].
    apply Forall_app. split; [|apply IHlang2; reflexivity]. apply lang_chr in H as (c & -> & F). constructor; [exact F | constructor].
  - intros H. induction H as [|c w F _ IH]; [constructor|]. change (c :: w) with ([c] ++ w). constructor; [constructor; exact F | discriminate | exact IH].
Qed.
Lemma lang_plus : forall f w, lang (plus (Chr f)) w <-> w <> [] /\ Forall (fun c => f c = true) w.
Proof.
  intros f w. unfold plus. rewrite lang_cat. split.
  - intros (u & v & -> & A & B). apply lang_chr in A as (c & -> & F). apply lang_star in B. split; [discriminate | constructor; assumption].
  - intros (NE & F). destruct w as [|c w]; [congruence|]. inversion F; subst. exists [c], w. repeat split; [constructor; assumption | apply lang_star; assumption].
Qed.
Lemma none_of_iff : forall (cs : pystr) (c : N), negb (memb c cs) = true <-> ~ In c cs.
Proof. intros cs c. rewrite Bool.negb_true_iff, memb_false. reflexivity. Qed.

(** ** First matches of simple repetitions *)
Lemma star_step : forall {R} (f : N -> bool) g s (k : st -> option R), m (Star g (Chr f)) s k =
  let more := match ahead s with c :: t => if f c then m (Star g (Chr f)) (step c t s) k else None | [] => None end in
  if g then match more with Some x => Some x | None => k s end else match k s with Some x => Some x | None => more end.
Proof.
  intros R f g s k. cbn [m]. destruct (ahead s) as [|c t] eqn:A; cbn [length iter m]; rewrite ?A.
  - reflexivity.
  - cbn [step ahead]. assert (T : (length t <? length (c :: t)) = true) by (apply Nat.ltb_lt; cbn; lia). rewrite T. reflexivity.
Qed.
Lemma lazy_first : forall {R} (f : N -> bool) u v bk cp (k : st -> option R) x, Forall (fun c => f c = true) u ->
  (forall u1 u2, u = u1 ++ u2 -> u2 <> [] -> k (mkSt (rev u1 ++ bk) (u2 ++ v) cp) = None) -> k (mkSt (rev u ++ bk) v cp) = Some x ->
  m (Star false (Chr f)) (mkSt bk (u ++ v) cp) k = Some x.
Proof.
  intros R f u v. induction u as [|c u IH]; intros bk cp k x F H K.
  - rewrite star_step. cbn [rev app] in *. rewrite K. reflexivity.
  - rewrite star_step. inversion F as [|c' u' Fc Fu]; subst. pose proof (H [] (c :: u) eq_refl ltac:(discriminate)) as N0. cbn [rev app] in N0. cbn [app]. rewrite N0.
    cbn [ahead]. rewrite Fc. unfold step. cbn [back caps]. apply IH; [exact Fu| |].
    + intros u1 u2 -> NE. specialize (H (c :: u1) u2 eq_refl NE). cbn [rev] in H. rewrite <- app_assoc in H. exact H.
    + cbn [rev] in K. rewrite <- app_assoc in K. exact K.
Qed.
Lemma greedy_first : forall {R} (f : N -> bool) u1 u2 v bk cp (k : st -> option R) x, Forall (fun c => f c = true) u1 -> Forall (fun c => f c = true) u2 ->
  match v with [] => True | c :: _ => f c = false end ->
  (forall p q, u2 = p ++ q -> p <> [] -> k (mkSt (rev (u1 ++ p) ++ bk) (q ++ v) cp) = None) -> k (mkSt (rev u1 ++ bk) (u2 ++ v) cp) = Some x ->
  m (Star true (Chr f)) (mkSt bk (u1 ++ u2 ++ v) cp) k = Some x.
Proof.
  intros R f u1. induction u1 as [|c u1 IH]; intros u2 v bk cp k x F1 F2 V H K.
  - cbn [app rev] in *. rewrite star_step. cbn [ahead].
    assert (N0 : match u2 ++ v with c :: t => if f c then m (Star true (Chr f)) (step c t (mkSt bk (u2 ++ v) cp)) k else None | [] => None end = None); [|rewrite N0; exact K].
    clear K. revert bk H. induction F2 as [|c u2 Fc F2 IH2]; intros bk H; cbn [app].
    + destruct v as [|c v]; [reflexivity | rewrite V; reflexivity].
    + rewrite Fc. unfold step. cbn [back caps]. rewrite star_step. cbn [ahead].
      rewrite IH2.
      * pose proof (H [c] u2 eq_refl ltac:(discriminate)) as N1. exact N1.
      * intros p q -> NE. specialize (H (c :: p) q eq_refl ltac:(discriminate)). cbn [rev] in H. rewrite <- app_assoc in H. exact H.
  - inversion F1 as [|c' u' Fc Fu]; subst. rewrite star_step. cbn [app ahead]. rewrite Fc. unfold step. cbn [back caps].
    rewrite (IH u2 v (c :: bk) cp k x Fu F2 V); [reflexivity| |].
    + intros p q -> NE. specialize (H p q eq_refl NE). cbn [app rev] in H. rewrite <- app_assoc in H. exact H.
    + cbn [rev] in K. rewrite <- app_assoc in K. exact K.
Qed.
Lemma lit_ok : forall {R} w t bk cp (k : st -> option R), m (lit w) (mkSt bk (w ++ t) cp) k = k (mkSt (rev w ++ bk) t cp).
Proof.
  intros R w. induction w as [|c w IH]; intros t bk cp k; [reflexivity|]. cbn [lit]. destruct w as [|d w].
  - cbn [ch m ahead app]. rewrite N.eqb_refl. reflexivity.
  - cbn [m]. unfold ch at 1. cbn [m ahead app]. rewrite N.eqb_refl. unfold step. cbn [back caps]. change (d :: w ++ t) with ((d :: w) ++ t). rewrite IH. cbn [rev]. rewrite <- !app_assoc. reflexivity.
Qed.
Lemma lit_fail : forall {R} w s bk cp (k : st -> option R), begins w s = false -> m (lit w) (mkSt bk s cp) k = None.
Proof.
  intros R w s bk cp k B. destruct (m (lit w) (mkSt bk s cp) k) as [x|] eqn:E; [|reflexivity]. destruct (m_sound _ _ _ _ E) as (s' & R1 & _).
  destruct (reach_text _ _ _ R1) as (u & A & _ & L & _). apply lang_lit in L as ->. cbn [ahead] in A. assert (B' : begins w s = true) by (apply begins_iff; exists (ahead s'); exact A). congruence.
Qed.
Lemma ch_ok : forall {R} c t bk cp (k : st -> option R), m (ch c) (mkSt bk (c :: t) cp) k = k (mkSt (c :: bk) t cp).
Proof. intros. unfold ch. cbn [m ahead]. rewrite N.eqb_refl. reflexivity. Qed.
Lemma ch_fail : forall {R} c s bk cp (k : st -> option R), begins [c] s = false -> m (ch c) (mkSt bk s cp) k = None.
Proof. intros R c s bk cp k B. apply (lit_fail [c]). exact B. Qed.
Lemma m_cat : forall {R} a b s (k : st -> option R), m (Cat a b) s k = m a s (fun s' => m b s' k).
Proof. reflexivity. Qed.
Lemma m_grp : forall {R} n a s (k : st -> option R), m (Grp n a) s k = m a s (fun s' => k (grab n s s')).
Proof. reflexivity. Qed.
Lemma m_alt : forall {R} a b s (k : st -> option R), m (Alt a b) s k = match m a s k with Some x => Some x | None => m b s k end.
Proof. reflexivity. Qed.

(** ** What a pattern passes over *)
Definition inert (r : re) (t : pystr) : Prop := forall rep bk rest, sub_from r rep 0 bk (t ++ rest) = t ++ sub_from r rep 0 (rev t ++ bk) rest.
Definition headed (r : re) (h : N) : Prop := forall w, lang r w -> exists w', w = h :: w'.
Lemma inert_nil : forall r, inert r [].
Proof. intros r rep bk rest. reflexivity. Qed.
Lemma inert_app : forall r a b, inert r a -> inert r b -> inert r (a ++ b).
Proof. intros r a b A B rep bk rest. rewrite <- app_assoc, A, B, rev_app_distr, <- !app_assoc. reflexivity. Qed.
Lemma inert_char : forall r c, (forall bk rest, m1 r bk (c :: rest) = None) -> inert r [c].
Proof. intros r c H rep bk rest. cbn [app rev]. apply sub_none, H. Qed.
Lemma headed_none : forall r h bk c s, headed r h -> c <> h -> m1 r bk (c :: s) = None.
Proof. intros r h bk c s H NE. apply m1_none. intros w t E L. destruct (H w L) as (w' & ->). injection E as -> _. congruence. Qed.
Lemma headed_inert : forall r h t, headed r h -> ~ In h t -> inert r t.
Proof.
  intros r h t H. induction t as [|c t IH]; intros NI; [apply inert_nil|]. change (c :: t) with ([c] ++ t). apply inert_app; [|apply IH; intros I; apply NI; right; exact I].
  apply inert_char. intros bk rest. apply (headed_none r h); [exact H | intros ->; apply NI; left; reflexivity].
Qed.
Lemma headed_cat : forall a b h, headed a h -> headed (Cat a b) h.
Proof. intros a b h H w L. apply lang_cat in L as (u & v & -> & A & _). destruct (H u A) as (u' & ->). eexists. reflexivity. Qed.
Lemma headed_lit : forall c s, headed (lit (c :: s)) c.
Proof. intros c s w L. apply lang_lit in L as ->. eexists. reflexivity. Qed.
Lemma headed_ch : forall c, headed (ch c) c.
Proof. intros c w L. apply lang_ch in L as ->. eexists. reflexivity. Qed.

(** ** finditer *)
Lemma finditer_from_skip : forall r w bk t, finditer_from r (length w) bk (w ++ t) = finditer_from r 0 (rev w ++ bk) t.
Proof. intros r w. induction w as [|c w IH]; intros bk t; [reflexivity|]. cbn [length app finditer_from rev]. rewrite IH, <- app_assoc. reflexivity. Qed.
Lemma finditer_none : forall r bk c s, m1 r bk (c :: s) = None -> finditer_from r 0 bk (c :: s) = finditer_from r 0 (c :: bk) s.
Proof. intros r bk c s E. cbn [finditer_from]. rewrite E. reflexivity. Qed.
Lemma finditer_hit : forall r bk w x, m1 r bk (w ++ ahead x) = Some x -> w <> [] -> finditer_from r 0 bk (w ++ ahead x) = (w, x) :: finditer_from r 0 (rev w ++ bk) (ahead x).
Proof.
  intros r bk w x E NE. destruct w as [|c w]; [congruence|]. cbn [app] in *. cbn [finditer_from]. rewrite E.
  replace (length (c :: w ++ ahead x) - length (ahead x)) with (S (length w)) by (cbn [length]; rewrite app_length; lia).
  rewrite finditer_from_skip. cbn [rev firstn]. rewrite <- app_assoc, firstn_app, firstn_all, Nat.sub_diag. cbn [firstn]. rewrite app_nil_r. reflexivity.
Qed.
Lemma finditer_over : forall r t bk rest, (forall a c b bk, t = a ++ c :: b -> m1 r bk (c :: b ++ rest) = None) -> finditer_from r 0 bk (t ++ rest) = finditer_from r 0 (rev t ++ bk) rest.
Proof.
  intros r t. induction t as [|c t IH]; intros bk rest H; [reflexivity|]. cbn [app rev]. rewrite finditer_none by (apply (H [] c t bk eq_refl)).
  rewrite IH by (intros a d b bk' ->; apply (H (c :: a) d b bk' eq_refl)). rewrite <- app_assoc. reflexivity.
Qed.
