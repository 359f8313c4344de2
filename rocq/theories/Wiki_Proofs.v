(** The removal of templates. *)
From Coq Require Import ZifyBool ZifyNat ZifyN.
From Verif Require Import Base Str Tfidf_Spec Regex_Model Wiki_Spec Regex_Proofs Wiki_Model.
Local Open Scope nat_scope.

Definition fin (s : pystr) (S0 : list nat) (E0 : list Z) : pystr :=
  concat (map (fun es => t_piece s (fst es) (snd es)) (combine (rev E0) (map Some (rev S0) ++ [None]))).
Definition plist (s : tst) : pystr := match prev s with Some p => [p] | None => [] end.
Definition last_of (d : option N) (p : pystr) : option N := match rev p with [] => d | c :: _ => Some c end.
Lemma last_of_cons : forall d c p, last_of d (c :: p) = last_of (Some c) p.
Proof. intros d c p. unfold last_of. cbn [rev]. destruct (rev p); reflexivity. Qed.
Lemma count_cons : forall c d s, count c (d :: s) = (if N.eqb c d then 1 else 0) + count c s.
Proof. intros c d s. unfold count. cbn [filter]. destruct (N.eqb c d); reflexivity. Qed.
Lemma count_app : forall c a b, count c (a ++ b) = count c a + count c b.
Proof. intros c a b. unfold count. rewrite filter_app, app_length. reflexivity. Qed.
Lemma t_scan_app : forall a b s i, t_scan s i (a ++ b) = t_scan (t_scan s i a) (i + length a) b.
Proof. induction a as [|c a IH]; intros b s i; cbn [app t_scan length]; [rewrite Nat.add_0_r; reflexivity|]. rewrite IH. f_equal. lia. Qed.

Lemma scan_plain : forall p i s, in_t s = false -> no_template (plist s ++ p) ->
  t_scan s i p = mkT (n_open s) (n_close s) false (last_of (prev s) p) (starts s) (ends s).
Proof.
  induction p as [|c p IH]; intros i s I H; cbn [t_scan].
  - destruct s; cbn in *. rewrite I. reflexivity.
  - assert (St : t_step s i c = mkT (n_open s) (n_close s) false (Some c) (starts s) (ends s)).
    { unfold t_step. rewrite I. cbn [negb andb].
      assert (F : (N.eqb c lbrace && match prev s with Some p => N.eqb p c | None => false end) = false).
      { unfold plist in H. destruct (prev s) as [q|]; [|apply Bool.andb_false_r]. destruct (N.eqb_spec c lbrace) as [->|]; [|reflexivity]. cbn [andb].
        apply N.eqb_neq. intros ->. apply H. exists [], p. reflexivity. }
      rewrite F. cbn. reflexivity. }
    rewrite St, IH; cbn [n_open n_close prev starts ends in_t]; [rewrite last_of_cons; reflexivity | reflexivity|].
    unfold plist. cbn [prev]. intros (u & v & E). apply H. exists (plist s ++ u), v. rewrite <- app_assoc. f_equal. exact E.
Qed.
Lemma scan_open : forall b i s, in_t s = true -> (forall p q, b = p ++ q -> n_close s + count 125 p < n_open s + count 123 p) ->
  t_scan s i b = mkT (n_open s + count 123 b) (n_close s + count 125 b) true (last_of (prev s) b) (starts s) (ends s).
Proof.
  induction b as [|c b IH]; intros i s I H; cbn [t_scan].
  - destruct s; cbn in *. rewrite I, 2 Nat.add_0_r. reflexivity.
  - assert (St : t_step s i c = mkT (n_open s + count 123 [c]) (n_close s + count 125 [c]) true (Some c) (starts s) (ends s)).
    { unfold t_step. rewrite I. cbn [negb andb]. pose proof (H [c] b eq_refl) as L. revert L. rewrite 2 count_cons. change (count 123 []) with 0. change (count 125 []) with 0. unfold lbrace, rbrace.
      rewrite (N.eqb_sym c 123), (N.eqb_sym c 125). destruct (N.eqb_spec 123 c) as [E1|E1], (N.eqb_spec 125 c) as [E2|E2]; try (exfalso; lia); intros L;
        (match goal with |- context [?a =? ?b] => replace (a =? b) with false by (symmetry; apply Nat.eqb_neq; lia) end); f_equal; lia. }
    rewrite St, IH; cbn [n_open n_close prev starts ends in_t].
    + rewrite last_of_cons, (count_cons 123 c b), (count_cons 125 c b), !count_cons. change (count 123 []) with 0. change (count 125 []) with 0. f_equal; lia.
    + reflexivity.
    + intros p q ->. pose proof (H (c :: p) q eq_refl) as L. rewrite !count_cons in *. change (count 123 []) with 0. change (count 125 []) with 0. lia.
Qed.
Lemma scan_close : forall b i s, in_t s = true -> b <> [] -> (forall p q, b = p ++ q -> q <> [] -> n_close s + count 125 p < n_open s + count 123 p) ->
  n_close s + count 125 b = n_open s + count 123 b ->
  t_scan s i b = mkT 0 0 false (Some 125%N) (starts s) (Z.of_nat (i + length b - 1) :: ends s).
Proof.
  intros b i s I NE H T. destruct (exists_last NE) as (b' & c & ->). rewrite t_scan_app.
  rewrite (scan_open b' i s I) by (intros p q ->; apply (H p (q ++ [c])); [rewrite app_assoc; reflexivity | destruct q; discriminate]).
  cbn [t_scan]. unfold t_step. cbn [in_t negb andb n_open n_close prev starts ends]. pose proof (H b' [c] eq_refl) as L. specialize (L ltac:(discriminate)).
  rewrite 2 count_app, 2 count_cons in T. change (count 123 []) with 0 in T. change (count 125 []) with 0 in T. unfold lbrace, rbrace. rewrite (N.eqb_sym c 123), (N.eqb_sym c 125).
  destruct (N.eqb_spec 123 c) as [E1|E1], (N.eqb_spec 125 c) as [E2|E2]; try (exfalso; lia).
  match goal with |- context [?a =? ?b] => replace (a =? b) with true by (symmetry; apply Nat.eqb_eq; lia) end.
  subst c. rewrite app_length. cbn [length]. replace (i + (length b' + 1) - 1) with (i + length b') by lia. reflexivity.
Qed.

(** ** Scanning from a later place *)
Definition rel (d : nat) (S1 : list nat) (E1 : list Z) (i : nat) (s s0 : tst) : Prop :=
  n_open s = n_open s0 /\ n_close s = n_close s0 /\ in_t s = in_t s0 /\ (prev s = Some 123%N <-> prev s0 = Some 123%N) /\ (prev s0 = Some 123%N -> 1 <= i) /\
  starts s = map (Nat.add d) (starts s0) ++ S1 /\ ends s = map (Z.add (Z.of_nat d)) (ends s0) ++ E1.
Lemma rel_step : forall d S1 E1 i s s0 c, rel d S1 E1 i s s0 -> rel d S1 E1 (S i) (t_step s (d + i) c) (t_step s0 i c).
Proof.
  intros d S1 E1 i s s0 c (A & B & C & D & D' & E & F). unfold t_step. rewrite A, B, C.
  assert (P : (N.eqb c lbrace && match prev s with Some p => N.eqb p c | None => false end) = (N.eqb c lbrace && match prev s0 with Some p => N.eqb p c | None => false end)).
  { destruct (N.eqb_spec c lbrace) as [->|]; [cbn [andb]|reflexivity]. unfold lbrace.
    assert (G : forall o : option N, (match o with Some p => N.eqb p 123 | None => false end) = true <-> o = Some 123%N) by (intros [p|]; [rewrite N.eqb_eq; split; congruence | split; discriminate]).
    pose proof (G (prev s)). pose proof (G (prev s0)). destruct (match prev s with Some p => (p =? 123)%N | None => false end), (match prev s0 with Some p => (p =? 123)%N | None => false end); try reflexivity; exfalso; intuition congruence. }
  rewrite P. destruct (negb (in_t s0) && (N.eqb c lbrace && match prev s0 with Some p => N.eqb p c | None => false end)) eqn:Q.
  - assert (I1 : 1 <= i).
    { apply D'. apply Bool.andb_true_iff in Q as (_ & Q). apply Bool.andb_true_iff in Q as (Q1 & Q2). apply N.eqb_eq in Q1. destruct (prev s0) as [p|]; [|discriminate]. apply N.eqb_eq in Q2. unfold lbrace in *. congruence. }
    cbn [fst snd]. destruct (N.eqb c lbrace); [|destruct (N.eqb c rbrace)];
      (match goal with |- context [if ?a =? ?b then _ else _] => destruct (a =? b) end); unfold rel; cbn [n_open n_close in_t prev starts ends map app]; rewrite E, F; repeat split; try tauto; try lia; f_equal; lia.
  - destruct (in_t s0).
    + destruct (N.eqb c lbrace); [|destruct (N.eqb c rbrace)];
        (match goal with |- context [if ?a =? ?b then _ else _] => destruct (a =? b) end); unfold rel; cbn [n_open n_close in_t prev starts ends map app]; rewrite E, F; repeat split; try tauto; try lia; f_equal; lia.
    + unfold rel. cbn [n_open n_close in_t prev starts ends]. repeat split; try tauto; try lia; assumption.
Qed.
Lemma rel_scan : forall d S1 E1 t i s s0, rel d S1 E1 i s s0 -> rel d S1 E1 (i + length t) (t_scan s (d + i) t) (t_scan s0 i t).
Proof.
  intros d S1 E1 t. induction t as [|c t IH]; intros i s s0 H; cbn [t_scan length]; [rewrite Nat.add_0_r; exact H|].
  replace (i + S (length t)) with (S i + length t) by lia. replace (S (d + i)) with (d + S i) by lia. apply IH, rel_step, H.
Qed.
(** The ends that are recorded are not in front of the text. *)
Lemma scan_ends : forall t i s, Forall (fun e => (-1 <= e)%Z) (ends s) -> Forall (fun e => (-1 <= e)%Z) (ends (t_scan s i t)).
Proof.
  induction t as [|c t IH]; intros i s H; cbn [t_scan]; [exact H|]. apply IH. unfold t_step.
  destruct (negb (in_t s) && _); destruct (N.eqb c lbrace); [|destruct (N.eqb c rbrace)| |destruct (N.eqb c rbrace)]; cbn [fst snd];
    repeat (match goal with |- context [if ?b then _ else _] => destruct b end); cbn [ends]; try exact H; constructor; try exact H; lia.
Qed.
Lemma piece_shift : forall pre r e o, (-1 <= e)%Z -> t_piece (pre ++ r) (Z.of_nat (length pre) + e) (option_map (Nat.add (length pre)) o) = t_piece r e o.
Proof.
  intros pre r e o L. unfold t_piece. set (d := length pre).
  replace (Z.to_nat (Z.of_nat d + e + 1)) with (d + Z.to_nat (e + 1)) by lia.
  assert (K : skipn (d + Z.to_nat (e + 1)) (pre ++ r) = skipn (Z.to_nat (e + 1)) r) by (unfold d; rewrite skipn_app, skipn_all2 by lia; cbn [app]; f_equal; lia).
  destruct o as [j|]; cbn [option_map]; rewrite K; [|reflexivity]. f_equal. lia.
Qed.
Lemma combine_app_len : forall {A B} (a1 a2 : list A) (b1 b2 : list B), length a1 = length b1 -> combine (a1 ++ a2) (b1 ++ b2) = combine a1 b1 ++ combine a2 b2.
Proof. induction a1 as [|x a1 IH]; intros a2 [|y b1] b2 L; try discriminate; [reflexivity|]. cbn. f_equal. apply IH. injection L as L. exact L. Qed.
Lemma combine_map2 : forall {A B C D} (f : A -> C) (g : B -> D) a b, combine (map f a) (map g b) = map (fun p => (f (fst p), g (snd p))) (combine a b).
Proof. induction a as [|x a IH]; intros [|y b]; try reflexivity. cbn. f_equal. apply IH. Qed.
Lemma fin_split : forall pre r S0 E0 S1 E1, length S1 = length E1 -> Forall (fun e => (-1 <= e)%Z) E0 ->
  fin (pre ++ r) (map (Nat.add (length pre)) S0 ++ S1) (map (Z.add (Z.of_nat (length pre))) E0 ++ E1) =
  concat (map (fun es => t_piece (pre ++ r) (fst es) (Some (snd es))) (combine (rev E1) (rev S1))) ++ fin r S0 E0.
Proof.
  intros pre r S0 E0 S1 E1 L F. unfold fin. rewrite 2 rev_app_distr, map_app, <- app_assoc, combine_app_len by (rewrite map_length, 2 rev_length; congruence).
  rewrite map_app, concat_app. f_equal.
  - f_equal. rewrite <- (map_id (rev E1)) at 1. rewrite combine_map2, map_map. reflexivity.
  - f_equal. rewrite <- 2 map_rev, map_map.
    replace (map (fun x => Some (length pre + x)) (rev S0) ++ [None]) with (map (option_map (Nat.add (length pre))) (map Some (rev S0) ++ [None])) by (rewrite map_app, map_map; reflexivity).
    rewrite combine_map2, map_map. apply map_ext_in. intros [e o] I. cbn [fst snd]. apply piece_shift. apply in_combine_l in I. apply in_rev in I. rewrite Forall_forall in F. apply F, I.
Qed.

Lemma remove_fin : forall s, remove_template s = fin s (starts (t_scan (mkT 0 0 false None [] [(-1)%Z]) 0 s)) (ends (t_scan (mkT 0 0 false None [] [(-1)%Z]) 0 s)).
Proof. reflexivity. Qed.
Lemma template_plain : forall s, no_template s -> remove_template s = s.
Proof. intros s H. rewrite remove_fin, scan_plain by (try reflexivity; exact H). cbn. apply app_nil_r. Qed.
Lemma last_of_snoc : forall d p c, last_of d (p ++ [c]) = Some c.
Proof. intros d p c. unfold last_of. rewrite rev_app_distr. reflexivity. Qed.
Lemma piece0 : forall p t, t_piece (p ++ t) (-1) (Some (length p)) = p.
Proof. intros p t. unfold t_piece. change (Z.to_nat (-1 + 1)) with 0. rewrite Nat.sub_0_r. cbv zeta. cbn [skipn]. rewrite firstn_app, Nat.sub_diag, firstn_all. cbn. apply app_nil_r. Qed.
Lemma scan_into : forall p, no_template (p ++ [123%N]) ->
  t_scan (mkT 0 0 false None [] [(-1)%Z]) 0 (p ++ braces) = mkT 2 0 true (Some 123%N) [length p] [(-1)%Z].
Proof.
  intros p H. change braces with ([123%N] ++ [123%N]). rewrite app_assoc, t_scan_app, (scan_plain (p ++ [123%N])) by (try reflexivity; exact H). rewrite last_of_snoc, app_length. cbn [length].
  cbn [n_open n_close starts ends t_scan]. unfold t_step. cbn [in_t negb prev n_open n_close starts ends]. cbn -[Nat.sub]. replace (length p + 1 - 1) with (length p) by lia. reflexivity.
Qed.
Lemma template_step : forall p t r, no_template (p ++ [123%N]) -> template t -> remove_template (p ++ t ++ r) = p ++ remove_template r.
Proof.
  intros p t r H (b & -> & T & O). rewrite remove_fin.
  assert (Sc : t_scan (mkT 0 0 false None [] [(-1)%Z]) 0 ((p ++ braces ++ b) ++ r) = t_scan (mkT 0 0 false (Some 125%N) [length p] [Z.of_nat (length (p ++ braces ++ b)) - 1; -1]%Z) (length (p ++ braces ++ b) + 0) r).
  { rewrite t_scan_app. cbn [Nat.add]. rewrite Nat.add_0_r. f_equal. rewrite app_assoc, t_scan_app, scan_into by exact H.
    rewrite scan_close; cbn [in_t n_open n_close starts ends].
    - assert (NB : b <> []) by (intros ->; cbn in T; discriminate).
      replace (Z.of_nat (0 + length (p ++ braces) + length b - 1)) with (Z.of_nat (length (p ++ braces ++ b)) - 1)%Z by (rewrite !app_length; destruct b; [congruence|]; cbn [length]; lia). rewrite <- app_assoc. reflexivity.
    - reflexivity.
    - intros ->. cbn in T. discriminate.
    - intros q q' E NE. exact (O q q' E NE).
    - cbn [Nat.add]. exact T. }
  rewrite (app_assoc braces b r) in Sc || idtac. replace (p ++ (braces ++ b) ++ r) with ((p ++ braces ++ b) ++ r) by (repeat rewrite <- app_assoc; reflexivity). rewrite Sc.
  pose proof (rel_scan (length (p ++ braces ++ b)) [length p] [(-1)%Z] r 0 (mkT 0 0 false (Some 125%N) [length p] [Z.of_nat (length (p ++ braces ++ b)) - 1; -1]%Z) (mkT 0 0 false None [] [(-1)%Z])) as RS.
  destruct RS as (_ & _ & _ & _ & _ & E1 & E2).
  - unfold rel. cbn [n_open n_close in_t prev starts ends map app]. repeat split; try discriminate.
  - rewrite E1, E2, fin_split; [|reflexivity|apply scan_ends; repeat constructor; lia].
    rewrite <- remove_fin. cbn [rev app combine map concat fst snd]. rewrite <- !app_assoc. rewrite piece0. reflexivity.
Qed.
Lemma template_open : forall p t, no_template (p ++ [123%N]) -> unclosed t -> remove_template (p ++ t) = p.
Proof.
  intros p t H (b & -> & O). rewrite remove_fin.
  assert (Sc : t_scan (mkT 0 0 false None [] [(-1)%Z]) 0 (p ++ braces ++ b) = t_scan (mkT 2 0 true (Some 123%N) [length p] [(-1)%Z]) (length (p ++ braces)) b).
  { rewrite app_assoc, t_scan_app, scan_into by exact H. reflexivity. }
  rewrite Sc, (scan_open b) by (try reflexivity; exact O). cbn [starts ends]. unfold fin. cbn [rev app map combine concat fst snd]. rewrite piece0. apply app_nil_r.
Qed.

(** ** Every text *)
Lemma infix_cons : forall g c s, infix g (c :: s) -> begins g (c :: s) = true \/ infix g s.
Proof. intros g c s ([|d u] & v & E); [left; apply begins_iff; exists v; exact E | right; injection E as -> ->; exists u, v; reflexivity]. Qed.
Lemma first_braces : forall s, no_template s \/ exists p u, s = p ++ braces ++ u /\ no_template (p ++ [123%N]).
Proof.
  induction s as [|c s IH].
  - left. intros ([|d u] & v & E); discriminate.
  - destruct (begins braces (c :: s)) eqn:B.
    + right. apply begins_iff in B as (t & E). exists [], t. split; [exact E|]. intros ([|a [|b u]] & v & E'); discriminate.
    + destruct IH as [H|(p & u & -> & H)].
      * left. intros I. apply infix_cons in I as [I|I]; [congruence | exact (H I)].
      * right. exists (c :: p), u. split; [reflexivity|]. intros I. apply infix_cons in I as [I|I]; [|exact (H I)].
        apply begins_iff in I as (t & E). cbn [app] in E. assert (B' : begins braces ((c :: p) ++ braces ++ u) = true); [|cbn [app] in *; congruence].
        apply begins_iff. change braces with [123%N; 123%N] in *. cbn [app] in E |- *. injection E as -> E. destruct p as [|d p]; cbn [app] in *.
        -- exists (123%N :: u). reflexivity.
        -- injection E as -> E. eexists. reflexivity.
Qed.
Lemma open_dec : forall p, {still_open p} + {~ still_open p}.
Proof. intros p. unfold still_open. apply lt_dec. Qed.
Lemma count_step : forall c p d, count c (p ++ [d]) <= S (count c p).
Proof. intros c p d. rewrite count_app, count_cons. cbn [count filter length]. change (count c []) with 0. destruct (N.eqb c d); lia. Qed.
Lemma close_dec : forall b, (forall p q, b = p ++ q -> still_open p) \/ exists b1 b2, b = b1 ++ b2 /\ count 125 b1 = 2 + count 123 b1 /\ forall p q, b1 = p ++ q -> q <> [] -> still_open p.
Proof.
  induction b as [|c b IH] using rev_ind.
  - left. intros p q E. symmetry in E. apply app_eq_nil in E as (-> & _). unfold still_open. cbn. lia.
  - destruct IH as [H|(b1 & b2 & -> & T & O)].
    + destruct (open_dec (b ++ [c])) as [K|K].
      * left. intros p q E. destruct q as [|d q] using rev_ind; [rewrite app_nil_r in E; subst; exact K|]. rewrite app_assoc in E. apply app_inj_tail in E as (E & _). apply (H p q E).
      * right. exists (b ++ [c]), []. rewrite app_nil_r. split; [reflexivity|]. split.
        -- pose proof (H b [] ltac:(rewrite app_nil_r; reflexivity)) as L. unfold still_open in *. rewrite !count_app, !count_cons in *. change (count 125 []) with 0 in *. change (count 123 []) with 0 in *.
           destruct (N.eqb_spec 125 c), (N.eqb_spec 123 c); lia.
        -- intros p q E NE. destruct q as [|d q] using rev_ind; [congruence|]. rewrite app_assoc in E. apply app_inj_tail in E as (E & _). apply (H p q E).
    + right. exists b1, (b2 ++ [c]). rewrite app_assoc. repeat split; assumption.
Qed.
Theorem template_cleaned : forall s, cleaned s (remove_template s).
Proof.
  intros s. remember (length s) as n eqn:E. assert (L : length s <= n) by lia. clear E. revert s L. induction n as [|n IH]; intros s L.
  - destruct s; [|cbn in L; lia]. rewrite template_plain by (intros ([|a u] & v & E); discriminate). constructor. intros ([|a u] & v & E); discriminate.
  - destruct (first_braces s) as [H|(p & u & -> & H)]; [rewrite template_plain by exact H; constructor; exact H|].
    destruct (close_dec u) as [O|(b1 & b2 & -> & T & O)].
    + assert (U : unclosed (braces ++ u)) by (exists u; split; [reflexivity | exact O]). rewrite template_open by assumption. constructor; assumption.
    + assert (U : template (braces ++ b1)) by (exists b1; repeat split; assumption). rewrite (app_assoc braces b1 b2), template_step by assumption.
      apply cl_template; [exact H | exact U|]. apply IH. rewrite !app_length in L. cbn in L. lia.
Qed.
Lemma infix_nil_l : forall g a b, infix g b -> infix g (a ++ b).
Proof. intros g a b (u & v & ->). exists (a ++ u), v. rewrite <- app_assoc. reflexivity. Qed.
Lemma no_template_prefix : forall p q, no_template (p ++ q) -> no_template p.
Proof. intros p q H (u & v & ->). apply H. exists u, (v ++ q). rewrite <- !app_assoc. reflexivity. Qed.
Lemma no_template_join : forall p u, no_template (p ++ [123%N]) -> no_template u -> no_template (p ++ u).
Proof.
  intros p u H K. induction p as [|c p IH]; [exact K|]. intros I. cbn [app] in I. apply infix_cons in I as [I|I].
  - apply begins_iff in I as (t & E). change braces with [123%N; 123%N] in E. cbn [app] in E. injection E as -> E. apply H. destruct p as [|d p]; cbn [app] in *.
    + exists [], []. reflexivity.
    + injection E as -> E. exists [], (p ++ [123%N]). reflexivity.
  - apply IH; [|exact I]. intros J. apply H. apply (infix_nil_l braces [c]). exact J.
Qed.
Lemma cleaned_none : forall s u, cleaned s u -> no_template u /\ subseq u s.
Proof.
  intros s u H. induction H as [s H|p t r u H T C (IH1 & IH2)|p t H U].
  - split; [exact H | apply subseq_refl].
  - split; [apply no_template_join; assumption|]. apply subseq_app; [apply subseq_refl|]. change u with ([] ++ u). apply subseq_app; [constructor | exact IH2].
  - split; [apply (no_template_prefix p [123%N]), H|]. rewrite <- (app_nil_r p) at 1. apply subseq_app; [apply subseq_refl | constructor].
Qed.
