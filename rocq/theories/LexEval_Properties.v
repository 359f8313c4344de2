(** Tables of lexical entailment and their evaluation; CSV corpora. *)
From Coq Require Import QArith Qabs.
From Verif Require Import Base Str Matutils_Model PoincareQuery_Model PoincareQuery_Properties PoincareEval_Properties LexEval_Model.
Close Scope Q_scope.
Local Open Scope nat_scope.

(** ** Spec *)
(** the content of a column: that of the last one with the name; None if the row is too short *)
Definition column (names row : list pystr) (c : pystr) (v : cell) : Prop :=
  exists i, nth_error names i = Some c /\ (forall j, i < j -> nth_error names j <> Some c) /\ v = nth_error row i.
Definition says (parse : pystr -> option Q) (names row : list pystr) (k : cell * cell) (x : Q) : Prop :=
  row <> [] /\ column names row (str "WORD1") (fst k) /\ column names row (str "WORD2") (snd k) /\
  exists t, column names row (str "AVG_SCORE") (Some t) /\ parse t = Some x.
Definition last_said (parse : pystr -> option Q) (names : list pystr) (body : list (list pystr)) (k : cell * cell) (x : Q) : Prop :=
  exists before row after, body = before ++ row :: after /\ says parse names row k x /\ forall r y, In r after -> ~ says parse names r k y.
(** a word that has a term *)
Definition known (ks : list pystr) (c : cell) : Prop := exists t, term_of ks (match c with Some w => w | None => str "None" end) t.

(** ** Proofs *)
Lemma last_index_some : forall c names i, last_index c names = Some i -> nth_error names i = Some c /\ forall j, i < j -> nth_error names j <> Some c.
Proof.
  induction names as [|x r IH]; intros i H; [discriminate H|]. cbn [last_index] in H. destruct (last_index c r) as [k|] eqn:E.
  - injection H as <-. destruct (IH k eq_refl) as [A B]. split; [exact A|]. intros [|j] L; [lia|]. apply B. lia.
  - destruct (eqb x c) eqn:X; [|discriminate H]. injection H as <-. apply (proj1 (eqb_true _ _)) in X. subst x. split; [reflexivity|]. intros [|j] L; [lia|]. cbn [nth_error]. clear - E. intros N. apply nth_error_In in N.
    revert E N. clear. induction r as [|y r IH]; intros E N; [destruct N|]. cbn [last_index] in E. destruct (last_index c r); [discriminate E|]. destruct (eqb y c) eqn:Y; [discriminate E|]. destruct N as [->|N]; [rewrite eqb_refl in Y; discriminate | apply (IH E N)].
Qed.
Lemma last_index_none : forall c names i, last_index c names = None -> nth_error names i <> Some c.
Proof.
  intros c names i E N. apply nth_error_In in N. revert E N. induction names as [|y r IH]; intros E N; [destruct N|]. cbn [last_index] in E. destruct (last_index c r); [discriminate E|]. destruct (eqb y c) eqn:Y; [discriminate E|].
  destruct N as [->|N]; [rewrite eqb_refl in Y; discriminate | apply (IH E N)].
Qed.
Lemma field_ok : forall names row c v, field names row c = Ok v <-> column names row c v.
Proof.
  intros names row c v. unfold field, column. destruct (last_index c names) as [i|] eqn:E.
  - destruct (last_index_some _ _ _ E) as [A B]. split.
    + intros H. injection H as <-. exists i. auto.
    + intros (j & H1 & H2 & ->). f_equal. f_equal. destruct (Nat.lt_trichotomy i j) as [L|[->|L]]; [destruct (B j L H1) | reflexivity | destruct (H2 i L A)].
  - split; [discriminate|]. intros (j & H & _). destruct (last_index_none c names j E H).
Qed.
Lemma add_row_ok : forall parse names sc row sc', add_row parse names sc row = Ok sc' <-> (row = [] /\ sc' = sc) \/ exists k x, says parse names row k x /\ sc' = dset sc k x.
Proof.
  intros parse names sc row sc'. unfold add_row, says. destruct row as [|r0 row]; [split; [intros H; injection H as <-; auto | intros [[_ ->]|(k & x & [N _] & _)]; [reflexivity | congruence]]|].
  set (row' := r0 :: row). split.
  - intros H. right. destruct (field names row' word1) as [w1|] eqn:E1; [|discriminate H]. destruct (field names row' word2) as [w2|] eqn:E2; [|discriminate H]. destruct (field names row' avg_score) as [v|] eqn:E3; [|discriminate H]. cbn [rbind] in H.
    destruct v as [t|]; [|discriminate H]. destruct (parse t) as [x|] eqn:E4; [|discriminate H]. cbn [of_option rbind] in H. injection H as <-. exists (w1, w2), x. split; [|reflexivity]. split; [discriminate|]. cbn [fst snd].
    split; [apply field_ok, E1|]. split; [apply field_ok, E2|]. exists t. split; [apply field_ok, E3 | exact E4].
  - intros [[X _]|([w1 w2] & x & (_ & H1 & H2 & t & H3 & H4) & ->)]; [discriminate X|]. cbn [fst snd] in *. apply field_ok in H1, H2, H3. fold word1 in H1. fold word2 in H2. fold avg_score in H3. rewrite H1, H2, H3. cbn [rbind]. rewrite H4. reflexivity.
Qed.
Lemma column_fun : forall names row c v v', column names row c v -> column names row c v' -> v = v'.
Proof. intros names row c v v' H H'. apply field_ok in H, H'. congruence. Qed.
Lemma says_fun : forall parse names row k x k' x', says parse names row k x -> says parse names row k' x' -> k = k' /\ x = x'.
Proof.
  intros parse names row [a b] x [a' b'] x' (_ & A & B & t & C & D) (_ & A' & B' & t' & C' & D'). cbn [fst snd] in *. rewrite (column_fun _ _ _ _ _ A A'), (column_fun _ _ _ _ _ B B'). split; [reflexivity|].
  pose proof (column_fun _ _ _ _ _ C C') as E. congruence.
Qed.
Lemma load_body : forall parse names body sc,
  ((exists sc', rfold (add_row parse names) body sc = Ok sc') <-> forall row, In row body -> row <> [] -> exists k x, says parse names row k x) /\
  forall sc', rfold (add_row parse names) body sc = Ok sc' -> (NoDup (dkeys sc) -> NoDup (dkeys sc')) /\
  forall k x, dget sc' k = Some x <-> last_said parse names body k x \/ ((forall r y, In r body -> ~ says parse names r k y) /\ dget sc k = Some x).
Proof.
  intros parse names. induction body as [|row body IH]; intros sc.
  - split; [split; [intros _ row [] | intros _; exists sc; reflexivity]|]. intros sc' H. cbn in H. injection H as <-. split; [auto|]. intros k x. split; [intros H; right; split; [intros r y [] | exact H]|].
    intros [(b & r & a & E & _)|[_ H]]; [destruct b; discriminate E | exact H].
  - cbn [rfold]. split.
    + split.
      * intros (sc' & H). destruct (add_row parse names sc row) as [s1|e] eqn:E; [|discriminate H]. cbn [rbind] in H. intros r [<-|Hr] N; [|apply (proj1 (proj1 (IH s1)) (ex_intro _ sc' H) r Hr N)].
        apply add_row_ok in E. destruct E as [[-> _]|(k & x & S & _)]; [congruence | eauto].
      * intros A. assert (E : exists s1, add_row parse names sc row = Ok s1).
        { destruct row as [|r0 row]; [exists sc; reflexivity|]. destruct (A _ (or_introl eq_refl)) as (k & x & S); [discriminate|]. exists (dset sc k x). apply add_row_ok. right. eauto. }
        destruct E as [s1 ->]. cbn [rbind]. apply (proj2 (proj1 (IH s1))). intros r Hr. apply A. right; exact Hr.
    + intros sc' H. destruct (add_row parse names sc row) as [s1|e] eqn:E; [|discriminate H]. cbn [rbind] in H. destruct (proj2 (IH s1) sc' H) as [ND G]. apply add_row_ok in E.
      split; [intros Hn; apply ND; destruct E as [[_ ->]|(k & x & _ & ->)]; [exact Hn | apply NoDup_dset, Hn]|].
      intros k x. rewrite (G k x). clear G ND IH H.
      assert (LS : last_said parse names (row :: body) k x <-> last_said parse names body k x \/ (says parse names row k x /\ forall r y, In r body -> ~ says parse names r k y)).
      { split.
        - intros (b & r & a & E1 & S & N). destruct b as [|b0 b]; cbn in E1; injection E1 as <- ->; [right; auto | left; exists b, r, a; auto].
        - intros [(b & r & a & -> & S & N)|[S N]]; [exists (row :: b), r, a; auto | exists [], row, body; auto]. }
      rewrite LS. destruct E as [[-> ->]|(k1 & x1 & S1 & ->)].
      * assert (N0 : forall y, ~ says parse names [] k y) by (intros y [N _]; congruence). split.
        -- intros [A|[A B]]; [left; left; exact A|]. right. split; [intros r y [<-|Hr]; [apply N0 | apply A, Hr] | exact B].
        -- intros [[A|[A _]]|[A B]]; [left; exact A | destruct (N0 _ A) |]. right. split; [intros r y Hr; apply A; right; exact Hr | exact B].
      * split.
        -- intros [A|[A B]]; [left; left; exact A|]. destruct (eq_dec k1 k) as [->|Nk].
           ++ rewrite dget_dset_same in B. injection B as <-. left; right. auto.
           ++ rewrite dget_dset_other in B by exact Nk. right. split; [|exact B]. intros r y [<-|Hr]; [|apply A, Hr]. intros S. destruct (says_fun _ _ _ _ _ _ _ S S1) as [X _]. congruence.
        -- intros [[A|[A N]]|[A B]]; [left; exact A | |].
           ++ destruct (says_fun _ _ _ _ _ _ _ A S1) as [<- <-]. right. split; [exact N | apply dget_dset_same].
           ++ right. split; [intros r y Hr; apply A; right; exact Hr|]. rewrite dget_dset_other; [exact B|]. intros ->. apply (A row x1 (or_introl eq_refl) S1).
Qed.
(** The table: every pair has the score of the last row that names it; a row that gives no score makes the whole table fail. *)
Theorem lex_scores_exact : forall parse names body,
  ((exists sc, load_scores parse (names :: body) = Ok sc) <-> forall row, In row body -> row <> [] -> exists k x, says parse names row k x) /\
  forall sc, load_scores parse (names :: body) = Ok sc -> NoDup (dkeys sc) /\ forall k x, dget sc k = Some x <-> last_said parse names body k x.
Proof.
  intros parse names body. destruct (load_body parse names body []) as [A B]. split; [exact A|]. intros sc H. destruct (B sc H) as [ND G]. split; [apply ND; constructor|].
  intros k x. rewrite G. split; [intros [C|[_ C]]; [exact C | discriminate C] | auto].
Qed.
Print Assumptions lex_scores_exact.

Section E.
Variable ks : list pystr.
Variable d : pystr -> pystr -> Q.
Variable nrm : pystr -> Q.
Definition judged (kv : (cell * cell) * Q) : bool := match score_function ks d nrm (shown (fst (fst kv))) (shown (snd (fst kv))) with Ok _ => true | Err _ => false end.
Lemma judged_iff : forall kv, judged kv = true <-> known ks (fst (fst kv)) /\ known ks (snd (fst kv)).
Proof.
  intros [[a b] x]. unfold judged, known. cbn [fst snd]. fold (shown a). fold (shown b). destruct (score_function_exact ks d nrm (shown a) (shown b)) as [[E N]|(t1 & t2 & T1 & T2 & _ & E)].
  - rewrite E. split; [discriminate|]. intros [[t1 T1] [t2 T2]]. destruct N as [N|N]; [destruct (N _ T1) | destruct (N _ T2)].
  - rewrite E. split; [intros _; split; eexists; eassumption | reflexivity].
Qed.
Lemma eval_loop : forall scores e p sk ct, exists ps, length ps = length (filter judged scores) /\
  Forall2 (fun kv q => score_function ks d nrm (shown (fst (fst kv))) (shown (snd (fst kv))) = Ok q) (filter judged scores) ps /\
  rfold (eval_pair ks d nrm) scores (e, p, sk, ct) = Ok (e ++ map snd (filter judged scores), p ++ ps, sk + (length scores - length ps), ct + length ps) /\ length ps <= length scores.
Proof.
  induction scores as [|kv r IH]; intros e p sk ct.
  - exists []. cbn. rewrite !app_nil_r, !Nat.add_0_r. auto.
  - cbn [rfold filter]. unfold eval_pair at 1. destruct (score_function ks d nrm (shown (fst (fst kv))) (shown (snd (fst kv)))) as [q|x] eqn:E.
    + assert (J : judged kv = true) by (unfold judged; rewrite E; reflexivity). rewrite J. cbn [rbind]. destruct (IH (e ++ [snd kv]) (p ++ [q]) sk (S ct)) as (ps & A & B & C & D). exists (q :: ps). split; [cbn [length]; congruence|]. split; [constructor; assumption|]. split; [|cbn [length]; lia].
      rewrite C. cbn [map length]. rewrite <- !app_assoc. cbn [app]. replace (S ct + length ps) with (ct + S (length ps)) by lia. reflexivity.
    + assert (X : x = ValueError). { destruct (score_function_exact ks d nrm (shown (fst (fst kv))) (shown (snd (fst kv)))) as [[E' _]|(t1 & t2 & _ & _ & _ & E')]; rewrite E in E'; [injection E' as ->; reflexivity | discriminate E']. }
      assert (J : judged kv = false) by (unfold judged; rewrite E; reflexivity). rewrite J. subst x. cbn [rbind]. destruct (IH e p (S sk) ct) as (ps & A & B & C & D). exists ps. split; [exact A|]. split; [exact B|]. split; [|cbn [length]; lia].
      rewrite C. cbn [length]. replace (S sk + (length r - length ps)) with (sk + (S (length r) - length ps)) by lia. reflexivity.
Qed.
End E.
(** The evaluation never fails, and compares - in the same order - the scores of the table with the predictions, of exactly the pairs whose words both have terms. *)
Theorem lex_eval_exact : forall ks d nrm spearman scores, exists js ps,
  evaluate_spearman ks d nrm spearman scores = Ok (spearman (map snd js) ps) /\
  Forall2 (fun kv p => exists a b, term_of ks (shown (fst (fst kv))) a /\ term_of ks (shown (snd (fst kv))) b /\
    (forall a' b', term_of ks (shown (fst (fst kv))) a' -> term_of ks (shown (snd (fst kv))) b' -> (d a b <= d a' b')%Q) /\ p = (- ((1 + 1000 * (nrm b - nrm a)) * d a b))%Q) js ps /\
  (exists f, js = filter f scores /\ forall kv, f kv = true <-> known ks (fst (fst kv)) /\ known ks (snd (fst kv))).
Proof.
  intros ks d nrm spearman scores. destruct (eval_loop ks d nrm scores [] [] 0 0) as (ps & A & B & C & _). exists (filter (judged ks d nrm) scores), ps. split; [|split].
  - unfold evaluate_spearman. rewrite C. reflexivity.
  - clear A C. induction B as [|kv q l l' H B IH]; constructor; [|exact IH]. destruct (score_function_exact ks d nrm (shown (fst (fst kv))) (shown (snd (fst kv)))) as [[E _]|(t1 & t2 & T1 & T2 & M & E)]; rewrite H in E; [discriminate E|].
    injection E as ->. exists t1, t2. auto.
  - exists (judged ks d nrm). split; [reflexivity | apply judged_iff].
Qed.
Print Assumptions lex_eval_exact.

(** ** CSV corpora *)
(** No file gives a CSV corpus: its lines are read as bytes and joined as texts; of an empty file no dialect can be guessed. *)
Theorem csvcorpus_refuted : exists e : exn, forall (dialect : Type) (sniff : pystr -> option dialect) header lines,
  (lines <> [] -> csv_init sniff header lines = Err e) /\ (sniff [] = None -> forall r, csv_init sniff header lines <> Ok r).
Proof.
  exists TypeError. intros dialect sniff header lines. destruct lines as [|l lines]; (split; [|intros H r]).
  - congruence.
  - unfold csv_init. cbn [firstn map join_text rbind]. rewrite H. discriminate.
  - intros _. reflexivity.
  - unfold csv_init. cbn. discriminate.
Qed.
Print Assumptions csvcorpus_refuted.

(** ** Examples *)
Definition num (s : pystr) : option Q := if eqb s (str "5.5") then Some (11 # 2)%Q else if eqb s (str "1") then Some 1%Q else None.
Definition header := [str "WORD1"; str "WORD2"; str "AVG_SCORE"].
Example lex_ex :
  load_scores num [header; [str "dog"; str "animal"; str "1"]; []; [str "tree"; str "plant"; str "1"]; [str "dog"; str "animal"; str "5.5"; str "more"]] =
    Ok [((Some (str "dog"), Some (str "animal")), 11 # 2); ((Some (str "tree"), Some (str "plant")), 1)]%Q /\
  load_scores num [header; [str "dog"; str "animal"]] = Err TypeError /\ load_scores num [header; [str "dog"; str "animal"; str "x"]] = Err ValueError /\
  load_scores num [[]; [str "dog"]] = Err KeyError.
Proof. vm_compute. repeat split; reflexivity. Qed.
Example lex_eval_ex :
  let ks := [str "dog.n.01"; str "animal.n.01"; str "plant.n.01"] in
  evaluate_spearman ks (fun _ _ => 1%Q) (fun _ => 0%Q) (fun e p => nth 0 e 0%Q) [((Some (str "tree"), Some (str "plant")), 1); ((Some (str "dog"), Some (str "animal")), 11 # 2)]%Q = Ok (11 # 2)%Q.
Proof. vm_compute. reflexivity. Qed.
(** A pair that was judged twice counts once, with its last score. *)
Theorem lex_duplicate_refuted : exists parse names body sc k x y, load_scores parse (names :: body) = Ok sc /\ length body = 2 /\ length sc = 1 /\
  (forall row, In row body -> exists z, says parse names row k z) /\ (exists row, In row body /\ says parse names row k x) /\ dget sc k = Some y /\ ~ (x == y)%Q.
Proof.
  set (r1 := [str "dog"; str "animal"; str "1"]). set (r2 := [str "dog"; str "animal"; str "5.5"]). exists num, header, [r1; r2]. eexists. exists (Some (str "dog"), Some (str "animal")), 1%Q, (11 # 2)%Q.
  assert (S : forall row t x, row = [str "dog"; str "animal"; t] -> num t = Some x -> says num header row (Some (str "dog"), Some (str "animal")) x).
  { intros row t x -> H. split; [discriminate|]. split; [apply field_ok; reflexivity|]. split; [apply field_ok; reflexivity|]. exists t. split; [apply field_ok; reflexivity | exact H]. }
  split; [vm_compute; reflexivity|]. split; [reflexivity|]. split; [reflexivity|]. split; [|split; [|split]].
  - intros row [<-|[<-|[]]]; [exists 1%Q | exists (11 # 2)%Q]; eapply S; reflexivity.
  - exists r1. split; [left; reflexivity|]. eapply S; reflexivity.
  - vm_compute. reflexivity.
  - discriminate.
Qed.
Print Assumptions lex_duplicate_refuted.
