(** The patterns of the removal of markup. *)
From Coq Require Import ZifyBool ZifyNat ZifyN.
From Verif Require Import Base Str Tfidf_Spec Regex_Model Wiki_Spec Regex_Proofs Wiki_Model Wiki_Proofs.
Local Open Scope nat_scope.

(** ** No tags are left *)
Definition angle (c : N) : bool := N.eqb c 60 || N.eqb c 62.
Lemma tagged_sees : forall u s, subseq (filter angle u) (filter angle s) -> tagged u -> tagged s.
Proof.
  intros u s H T. unfold tagged in *. apply (subseq_filter2 angle) in T. change (filter angle [60%N; 62%N]) with [60%N; 62%N] in T.
  apply (subseq_trans2 _ _ _ T). apply (subseq_trans2 _ _ _ H). clear. induction s as [|c s IH]; cbn [filter]; [constructor|]. destruct (angle c); constructor; exact IH.
Qed.
Lemma gone_sees : forall (f : N -> bool) (x : st) (w : pystr), (forall n, group n x = [] \/ infix (group n x) w) -> subseq (filter f (gone x)) (filter f w).
Proof. intros. constructor. Qed.
Lemma group_sees : forall n (f : N -> bool) (x : st) (w : pystr), (forall n, group n x = [] \/ infix (group n x) w) -> subseq (filter f (group n x)) (filter f w).
Proof. intros n f x w H. destruct (H n) as [->|I]; [constructor|]. apply subseq_filter2, subseq_infix, I. Qed.
Lemma newline_sees : forall (f : N -> bool) (x : st) (w : pystr), f nl = false -> (forall n, group n x = [] \/ infix (group n x) w) -> subseq (filter f (newline x)) (filter f w).
Proof. intros f x w F _. unfold newline. cbn [filter]. rewrite F. constructor. Qed.
Lemma tagged_cons : forall c s, tagged (c :: s) -> tagged s \/ c = 60%N /\ In 62%N s.
Proof. intros c s H. unfold tagged in *. inversion H as [|x a b K E1 E2|x a b K E1 E2]; subst; [right; split; [reflexivity | apply (subseq_In _ _ _ K); left; reflexivity] | left; exact K]. Qed.
Lemma p11_reach : forall a b bk, m1 RE_P11 bk (60%N :: a ++ 62%N :: b) <> None.
Proof.
  intros a b bk E. unfold m1 in E.
  assert (G : exists s', reach (Star false (Chr (fun _ => true))) (mkSt [60%N] [] []) s') by (eexists; constructor).
  assert (St : forall a bk cp, reach (lazy any) (mkSt bk (a ++ 62%N :: b) cp) (mkSt (rev a ++ bk) (62%N :: b) cp)).
  { clear. intros a. induction a as [|c a IH]; intros bk cp; [constructor|]. cbn [app]. apply (R_starS _ _ _ (mkSt (c :: bk) (a ++ 62%N :: b) cp)).
    - apply (R_chr _ c (a ++ 62%N :: b) (mkSt bk (c :: a ++ 62%N :: b) cp)); reflexivity.
    - cbn. lia.
    - cbn [rev]. rewrite <- app_assoc. apply IH. }
  pose proof (m_complete _ _ _ E) as C. eapply (fun s' H => eq_ind (Some s') (fun o => match o with Some _ => True | None => False end) Logic.I None (C s' H)).
  unfold RE_P11. cbn [seq]. eapply R_cat; [apply (R_chr _ 60%N (a ++ 62%N :: b)); reflexivity|]. eapply R_cat; [apply R_grp, St|].
  eapply (R_chr _ 62%N b); [reflexivity | reflexivity].
Qed.
Lemma p11_no_tags : forall s bk, ~ tagged (sub_from RE_P11 gone 0 bk s).
Proof.
  intros s bk. apply (sub_cases RE_P11 gone (fun s u => ~ tagged u /\ subseq u s)).
  - split; [intros H; inversion H | constructor].
  - intros bk' c t u M (IH1 & IH2). split; [|constructor; exact IH2]. intros T. apply tagged_cons in T as [T|(-> & I)]; [exact (IH1 T)|].
    apply (subseq_In _ _ _ IH2) in I. apply in_split in I as (a & b & ->). destruct M as [M|(x & M & A)].
    + exact (p11_reach a b bk' M).
    + destruct (m1_some _ _ _ _ M) as (w & E & L & _). rewrite A in E. assert (W : w = []) by (destruct w; [reflexivity|]; apply (f_equal (@length N)) in E; rewrite app_length in E; cbn in E; lia).
      subst w. unfold RE_P11 in L. cbn [seq] in L. apply lang_cat in L as (u' & v & E' & L & _). apply lang_ch in L as ->. discriminate.
  - intros bk' w x u _ _ _ _ (IH1 & IH2). unfold gone. cbn [app]. split; [exact IH1|]. change u with ([] ++ u). apply subseq_app; [constructor | exact IH2].
Qed.
Section Wiki.
Context (wordc decimal : N -> bool).
Notation pass := (markup_pass wordc decimal).
Lemma pass_no_tags : forall simplify t, ~ tagged (pass simplify t).
Proof.
  intros simplify t T. unfold markup_pass in T.
  repeat match type of T with
  | tagged (let x := sub RE_P11 gone _ in _) => fail 1
  | _ => idtac
  end.
  set (t0 := sub RE_P10 gone (sub RE_P9 gone (sub RE_P1 gone (sub RE_P0 gone t)))) in T. clearbody t0. apply (p11_no_tags t0 []). unfold sub in T. revert T. apply tagged_sees.
  repeat (match goal with
          | |- subseq (filter angle (replace _ _ _)) _ => eapply subseq_trans2; [apply replace_sees; [discriminate | vm_compute; repeat constructor]|]
          | |- subseq (filter angle (sub_from _ gone 0 [] (sub_from RE_P11 _ _ _ _))) _ => eapply subseq_trans2; [apply sub_sees; intros; apply gone_sees; assumption|]
          | |- subseq (filter angle (sub_from RE_P11 _ _ _ _)) _ => apply subseq_refl
          | |- subseq (filter angle (sub_from _ gone 0 _ _)) _ => eapply subseq_trans2; [apply sub_sees; intros; apply gone_sees; assumption|]
          | |- subseq (filter angle (sub_from _ newline 0 _ _)) _ => eapply subseq_trans2; [apply sub_sees; intros; apply newline_sees; [reflexivity | assumption]|]
          | |- subseq (filter angle (sub_from _ (group _) 0 _ _)) _ => eapply subseq_trans2; [apply sub_sees; intros; apply group_sees; assumption|]
          | |- subseq (filter angle (if simplify then _ else _)) _ => destruct simplify
          end).
Qed.
Lemma loop_pass : forall n simplify t, exists u, markup_loop wordc decimal n simplify t = pass simplify u.
Proof.
  induction n as [|n IH]; intros simplify t; cbn [markup_loop]; destruct (eqb t (pass simplify t)); try (exists t; reflexivity). apply IH.
Qed.
Lemma markup_no_tags : forall promote simplify t, ~ tagged (remove_markup wordc decimal promote simplify t).
Proof.
  intros promote simplify t T. unfold remove_markup in T. match type of T with context [markup_loop wordc decimal 2 simplify ?u] => destruct (loop_pass 2 simplify u) as (v & E); rewrite E in T end.
  destruct promote; [|exact (pass_no_tags _ _ T)]. apply (pass_no_tags simplify v). revert T. apply tagged_sees.
  eapply subseq_trans2; [apply replace_sees; [discriminate | constructor]|]. apply replace_sees; [discriminate | constructor].
Qed.

(** ** Nothing grows *)
Lemma gone_short : forall (x : st) (w : pystr), w <> [] -> (forall n, group n x = [] \/ infix (group n x) w) -> length (gone x) <= length w.
Proof. intros. cbn. lia. Qed.
Lemma newline_short : forall (x : st) (w : pystr), w <> [] -> (forall n, group n x = [] \/ infix (group n x) w) -> length (newline x) <= length w.
Proof. intros x w NE _. destruct w; [congruence | cbn; lia]. Qed.
Lemma group_short : forall n (x : st) (w : pystr), w <> [] -> (forall n, group n x = [] \/ infix (group n x) w) -> length (group n x) <= length w.
Proof. intros n x w _ H. destruct (H n) as [->|I]; [cbn; lia | apply subseq_length, subseq_infix, I]. Qed.
Lemma pass_shorter : forall simplify t, length (pass simplify t) <= length t.
Proof.
  intros simplify t. unfold markup_pass, sub. 
  repeat (match goal with
          | |- length (replace _ _ _) <= _ => eapply Nat.le_trans; [apply replace_shorter; [discriminate | vm_compute; lia]|]
          | |- length (sub_from _ gone 0 _ _) <= _ => eapply Nat.le_trans; [apply sub_shorter, gone_short|]
          | |- length (sub_from _ newline 0 _ _) <= _ => eapply Nat.le_trans; [apply sub_shorter, newline_short|]
          | |- length (sub_from _ (group _) 0 _ _) <= _ => eapply Nat.le_trans; [apply sub_shorter, group_short|]
          | |- length (if simplify then _ else _) <= _ => destruct simplify
          end); lia.
Qed.
Lemma loop_shorter : forall n simplify t, length (markup_loop wordc decimal n simplify t) <= length t.
Proof.
  induction n as [|n IH]; intros simplify t; cbn [markup_loop]; destruct (eqb t (pass simplify t)); try apply pass_shorter.
  eapply Nat.le_trans; [apply IH | apply pass_shorter].
Qed.
Lemma last_split_short : forall c s, length (last (split_on c s) []) <= length s.
Proof.
  intros c s. induction s as [|d s IH]; cbn [split_on]; [cbn; lia|]. destruct (eq_dec d c).
  - destruct (split_on c s) as [|w ws] eqn:E; [exfalso; exact (split_on_nonempty c s E)|]. cbn [last]. cbn [last length] in *. lia.
  - destruct (split_on c s) as [|w [|w' ws]]; cbn [last length] in *; lia.
Qed.
Lemma caption_short : forall g, length (caption g) <= length g.
Proof. intros g. unfold caption. eapply Nat.le_trans; [apply last_split_short|]. rewrite firstn_length. lia. Qed.
Lemma file_shorter : forall s, length (remove_file s) <= length s.
Proof.
  intros s. unfold remove_file. generalize (finditer RE_P15 s) as gs. intros gs. revert s. induction gs as [|g gs IH]; intros s; cbn [fold_left]; [lia|].
  eapply Nat.le_trans; [apply IH|]. apply replace1_shorter, caption_short.
Qed.
Lemma markup_shorter : forall promote simplify t, length (remove_markup wordc decimal promote simplify t) <= length t.
Proof.
  intros promote simplify t. unfold remove_markup.
  assert (B : length (markup_loop wordc decimal 2 simplify (remove_file (remove_template (sub (RE_P2 wordc) gone t)))) <= length t).
  { eapply Nat.le_trans; [apply loop_shorter|]. eapply Nat.le_trans; [apply file_shorter|]. eapply Nat.le_trans; [apply subseq_length, (cleaned_none _ _ (template_cleaned _))|]. apply sub_shorter, gone_short. }
  destruct promote; [|exact B]. eapply Nat.le_trans; [apply replace_shorter; [discriminate | cbn; lia]|]. eapply Nat.le_trans; [apply replace_shorter; [discriminate | cbn; lia] | exact B].
Qed.

(** ** Brackets *)
Lemma replace_char : forall c s, replace [c] [] s = filter (fun d => negb (N.eqb c d)) s.
Proof.
  intros c s. unfold replace. induction s as [|d s IH]; [reflexivity|]. cbn [replace_from begins filter]. rewrite Bool.andb_true_r. destruct (N.eqb c d); cbn [negb app length Nat.sub]; [exact IH | rewrite IH; reflexivity].
Qed.
Lemma promoted : forall t, replace (str "]") [] (replace (str "[") [] t) = filter (fun d => negb (N.eqb 91 d) && negb (N.eqb 93 d)) t.
Proof.
  intros t. change (str "]") with [93%N]. change (str "[") with [91%N]. rewrite 2 replace_char. induction t as [|c t IH]; cbn [filter]; [reflexivity|].
  destruct (N.eqb 91 c); cbn [negb andb filter]; [exact IH|]. destruct (N.eqb 93 c); cbn [negb]; [exact IH | f_equal; exact IH].
Qed.
End Wiki.
