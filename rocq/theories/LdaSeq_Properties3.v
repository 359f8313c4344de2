(** Properties of the dynamic topic model: what results depend on. *)
From Coq Require Import Reals Lra Psatz Lia FunctionalExtensionality.
From Verif Require Import Base MatReal_Model LdaTrain_Model LdaTrain_Proofs2 SoftCosine_Model Lsi_Linear LdaSeq_Model LdaSeq_Spec LdaSeq_Proofs3 LdaSeq_Proofs4 LdaSeq_Proofs5 LdaSeq_Properties2.
Local Open Scope R_scope.

(** ** The start of the inference *)
Section Agree.
Variables psi lgam : R -> R.
Variable m : lda.
Hypothesis HK : (0 < l_K m)%nat.
Definition agree (d : doc) (p q : post) : Prop := p_gamma p = p_gamma q /\ forall n, (n < length d)%nat -> p_phi p n = p_phi q n /\ p_log p n = p_log q n.
Lemma numbered_lt : forall (d : doc) nw, In nw (numbered d) -> (fst nw < length d)%nat.
Proof. intros d [n x] H. exact (numbered_in _ d n x H). Qed.
Lemma agree_gamma : forall d p q, agree d p q -> agree d (update_gamma m d p) (update_gamma m d q).
Proof.
  intros d p q [_ A2]. split; [|exact A2]. unfold update_gamma. cbn [p_gamma].
  assert (G : forall l g, (forall nw, In nw l -> (fst nw < length d)%nat) ->
    fold_left (fun (g : row) (nw : nat * (nat * R)) => fun k => g k + p_phi p (fst nw) k * snd (snd nw)) l g = fold_left (fun (g : row) (nw : nat * (nat * R)) => fun k => g k + p_phi q (fst nw) k * snd (snd nw)) l g).
  { intros l. induction l as [|nw l IH]; intros g H; [reflexivity|]. cbn [fold_left]. destruct (A2 (fst nw) (H nw (or_introl eq_refl))) as [E _]. rewrite E. apply IH. intros x Hx. apply H. now right. }
  apply G. apply numbered_lt.
Qed.
Lemma agree_phi : forall d p q, agree d p q -> agree d (update_phi psi m d p) (update_phi psi m d q).
Proof.
  intros d p q [A1 A2]. split; [exact A1|]. intros n Hn. unfold update_phi. cbn [p_phi p_log]. rewrite A1.
  assert (G : forall (l : list (nat * (nat * R))) a b, (forall n, (n < length d)%nat -> fst a n = fst b n /\ snd a n = snd b n) ->
    fst (fold_left (phi_step psi m (p_gamma q)) l a) n = fst (fold_left (phi_step psi m (p_gamma q)) l b) n /\ snd (fold_left (phi_step psi m (p_gamma q)) l a) n = snd (fold_left (phi_step psi m (p_gamma q)) l b) n).
  { intros l. induction l as [|nw l IH]; intros a b H; [now apply H|]. cbn [fold_left]. apply IH. intros n0 Hn0. unfold phi_step, put. cbn [fst snd]. destruct (n0 =? fst nw)%nat; [split; reflexivity | now apply H]. }
  apply G. exact A2.
Qed.
Lemma agree_lhood : forall d p q, agree d p q -> lda_lhood psi lgam m d p = lda_lhood psi lgam m d q.
Proof.
  intros d p q [A1 A2]. unfold lda_lhood. rewrite A1. f_equal. apply sumn_ext. intros k _. unfold lhood_term. rewrite A1. f_equal. f_equal. apply map_ext_in. intros nw H.
  destruct (A2 (fst nw) (numbered_lt d nw H)) as [E1 E2]. now rewrite E1, E2.
Qed.
Lemma agree_loop : forall fuel d mi it p q l c, agree d p q ->
  agree d (fst (fst (post_loop psi lgam m fuel d mi it p l c))) (fst (fst (post_loop psi lgam m fuel d mi it q l c))) /\
  snd (fst (post_loop psi lgam m fuel d mi it p l c)) = snd (fst (post_loop psi lgam m fuel d mi it q l c)) /\ snd (post_loop psi lgam m fuel d mi it p l c) = snd (post_loop psi lgam m fuel d mi it q l c).
Proof.
  intros fuel. induction fuel as [|fuel IH]; intros d mi it p q l c A; cbn [post_loop]; [now split|]. destruct (_ && _); [|now split].
  pose proof (agree_phi d _ _ (agree_gamma d _ _ A)) as A'. fold (round psi m d p) in A'. fold (round psi m d q) in A'. rewrite (agree_lhood d _ _ A'). now apply IH.
Qed.
End Agree.
(** C110: of what earlier documents left behind only log_phi has an influence. *)
Theorem posterior_depends_on : forall psi lgam m d mi p q p' q' lp lq ip iq, (forall n, (n < length d)%nat -> p_log p n = p_log q n) ->
  fit_post psi lgam m d mi p = Ok (p', lp, ip) -> fit_post psi lgam m d mi q = Ok (q', lq, iq) ->
  p_gamma p' = p_gamma q' /\ (forall n, (n < length d)%nat -> p_phi p' n = p_phi q' n) /\ lp = lq /\ ip = iq.
Proof.
  intros psi lgam m d mi p q p' q' lp lq ip iq HL HP HQ. unfold fit_post in *. destruct (negb _); [discriminate|].
  assert (A0 : agree d (init_post m d p) (init_post m d q)).
  { split; [reflexivity|]. intros n Hn. cbn [init_post p_phi p_log]. rewrite (proj2 (Nat.ltb_lt _ _) Hn). split; [reflexivity | now apply HL]. }
  pose proof (agree_phi psi m d _ _ (agree_gamma m d _ _ A0)) as A1. fold (round psi m d (init_post m d p)) in A1. fold (round psi m d (init_post m d q)) in A1.
  rewrite (agree_lhood psi lgam m d _ _ A0), (agree_lhood psi lgam m d _ _ A1) in HP.
  match type of HP with Ok (post_loop _ _ _ ?f _ _ ?i ?x ?l ?c) = _ => pose proof (agree_loop psi lgam m f d mi i _ _ l c A1) as G; assert (EP : post_loop psi lgam m f d mi i x l c = (p', lp, ip)) by congruence end.
  match type of HQ with Ok ?a = _ => assert (EQ : a = (q', lq, iq)) by congruence end. rewrite EP, EQ in G. cbn [fst snd] in G. destruct G as [[G1 G2] [G3 G4]].
  split; [exact G1|]. split; [intros n Hn; now apply G2|]. auto.
Qed.
Print Assumptions posterior_depends_on.
(** It does have one: log_phi is not set at the start, and the first bound is computed with it.  The mixture of a document depends on the document before. *)
Lemma loop_keeps : forall psi lgam m (P : post -> Prop) d, (forall p, P p -> P (round psi m d p)) -> forall fuel mi it p l c, P p -> P (fst (fst (post_loop psi lgam m fuel d mi it p l c))).
Proof.
  intros psi lgam m P d HP fuel. induction fuel as [|fuel IH]; intros mi it p l c H; cbn [post_loop]; [exact H|]. destruct (_ && _); [|exact H]. apply IH. now apply HP.
Qed.
Definition left_topics (u : R) (w k : nat) : R :=
  match w, k with 0%nat, 0%nat => ln 3 | 1%nat, 1%nat => ln 3 | 2%nat, 0%nat => u | 3%nat, 1%nat => u | _, _ => 0 end.
Definition left_lda (u : R) : lda := mkLda 2 4 (fun _ => 1) (left_topics u).
(** Two words that mirror each other: the mixture stays even. *)
Lemma mirror : forall psi lgam u v x y mi p, (x < 4)%nat -> (y < 4)%nat -> left_topics u x 0 = v -> left_topics u x 1 = 0 -> left_topics u y 0 = 0 -> left_topics u y 1 = v ->
  exists q lh it, fit_post psi lgam (left_lda u) [(x, 1); (y, 1)] mi p = Ok (q, lh, it) /\ p_log q 0%nat 0%nat = v - ln (exp v + 1) /\ p_log q 0%nat 1%nat = - ln (exp v + 1).
Proof.
  intros psi lgam u v x y mi p Hx Hy X0 X1 Y0 Y1. set (d := [(x, 1); (y, 1)]) in *. set (m := left_lda u). assert (HK : (0 < l_K m)%nat) by (cbn; lia).
  set (P := fun p : post => p_phi p 0%nat 0%nat + p_phi p 1%nat 0%nat = 1 /\ p_phi p 0%nat 1%nat + p_phi p 1%nat 1%nat = 1).
  set (Q := fun p : post => p_log p 0%nat 0%nat = v - ln (exp v + 1) /\ p_log p 0%nat 1%nat = - ln (exp v + 1)).
  assert (RD : forall p, P p -> P (round psi m d p) /\ Q (round psi m d p)).
  { intros p0 [P1 P2]. set (g := update_gamma m d p0). assert (G : forall k, (k < 2)%nat -> p_gamma g k = 2).
    { intros k Hk. unfold g. rewrite update_gamma_is. unfold numbered, d. cbn [length seq combine map fst snd l_alpha m left_lda]. unfold Rsum. cbn [fold_right]. destruct k as [|[|k]]; [lra | lra | lia]. }
    assert (V0 : forall k, _) by exact (fun k => update_phi_row psi m HK d g 0 (x, 1) (or_introl eq_refl) k). assert (V1 : forall k, _) by exact (fun k => update_phi_row psi m HK d g 1 (y, 1) (or_intror (or_introl eq_refl)) k).
    pose proof (exp_pos (psi 2)) as E2. pose proof (exp_pos v) as EV.
    assert (PX : part psi m (p_gamma g) x = exp (psi 2) * (exp v + 1)).
    { unfold part, raw_phi, sumn. cbn [l_K m left_lda seq map]. unfold Rsum. cbn [fold_right l_topics m left_lda]. rewrite !G by lia. rewrite X0, X1, !exp_plus, exp_0. ring. }
    assert (PY : part psi m (p_gamma g) y = exp (psi 2) * (exp v + 1)).
    { unfold part, raw_phi, sumn. cbn [l_K m left_lda seq map]. unfold Rsum. cbn [fold_right l_topics m left_lda]. rewrite !G by lia. rewrite Y0, Y1, !exp_plus, exp_0. ring. }
    unfold round. fold g. destruct (V0 0%nat) as [A00 L00]. destruct (V0 1%nat) as [A01 L01]. destruct (V1 0%nat) as [A10 _]. destruct (V1 1%nat) as [A11 _]. cbn [fst] in *.
    rewrite PX in A00, A01, L00, L01. rewrite PY in A10, A11. unfold raw_phi in A00, A01, A10, A11, L00, L01. cbn [l_topics m left_lda] in A00, A01, A10, A11, L00, L01.
    rewrite G in A00, A01, A10, A11, L00, L01 by lia. rewrite ?X0, ?X1, ?Y0, ?Y1 in *. rewrite exp_plus in A00, A01, A10, A11. rewrite exp_0 in A01, A10. split; split.
    - rewrite A00, A10. field. split; lra.
    - rewrite A01, A11. field. split; lra.
    - rewrite L00. rewrite ln_mult, ln_exp by lra. ring.
    - rewrite L01. rewrite ln_mult, ln_exp by lra. ring. }
  unfold fit_post. fold m. assert (FB : forallb (fun wc => (fst wc <? l_W m)%nat) d = true) by (cbn [d forallb fst l_W m left_lda]; now rewrite !(proj2 (Nat.ltb_lt _ _)) by assumption). rewrite FB. cbn [negb].
  assert (PI : P (init_post m d p)) by (unfold P, init_post; cbn; split; lra).
  set (r := post_loop _ _ _ _ _ _ _ _ _ _). exists (fst (fst r)), (snd (fst r)), (snd r). split; [now destruct r as [[a b] c]|].
  apply (loop_keeps psi lgam m (fun p => P p /\ Q p) d); [intros p0 [H0 _]; now apply RD | now apply RD].
Qed.
(** The document [(0, 1)]: everything it depends on is the sum of the logarithms that are left in row 0. *)
Lemma left_fit : forall psi lgam, exists C, forall u p, let l0 := C - (p_log p 0%nat 0%nat + p_log p 0%nat 1%nat) / 2 in let l1 := C + ln 4 - ln 3 / 2 in
  exists p' lh it, fit_post psi lgam (left_lda u) [(0%nat, 1)] 1 p = Ok (p', lh, it) /\ p_gamma p' 0%nat = (if above (rel_change (l0 - l1) l0) lda_tol then 7 / 4 else 3 / 2).
Proof.
  intros psi lgam. set (d := [(0%nat, 1)] : doc). set (z := mkP (fun _ => 0) (fun _ _ => 0) (fun _ _ => 0)). set (C := lda_lhood psi lgam (left_lda 0) d (init_post (left_lda 0) d z)). exists C. intros u p l0 l1. set (m := left_lda u). assert (HK : (0 < l_K m)%nat) by (cbn; lia).
  assert (E0 : lda_lhood psi lgam m d (init_post m d p) = l0).
  { unfold l0, C, lda_lhood, lhood_term, init_post, z, numbered, d, sumn, Rsum, m. cbn. destruct (Rlt_dec 0 (1 / (1 + 1))) as [_|N]; [lra | exfalso; apply N; lra]. }
  set (p1 := round psi m d (init_post m d p)).
  assert (G1 : forall k, (k < 2)%nat -> p_gamma (update_gamma m d (init_post m d p)) k = 3 / 2) by (intros k Hk; unfold update_gamma, init_post, numbered, d, m; cbn; lra).
  assert (V : forall k, _) by exact (fun k => update_phi_row psi m HK d (update_gamma m d (init_post m d p)) 0 (0%nat, 1) (or_introl eq_refl) k).
  pose proof (exp_pos (psi (3 / 2))) as EP.
  assert (PX : part psi m (p_gamma (update_gamma m d (init_post m d p))) 0%nat = exp (psi (3 / 2)) * 4).
  { unfold part, raw_phi, sumn. cbn [l_K m left_lda seq map]. unfold Rsum. cbn [fold_right l_topics left_topics m left_lda]. rewrite !G1 by lia. rewrite !exp_plus, exp_0, exp_ln by lra. ring. }
  destruct (V 0%nat) as [A0 L0]. destruct (V 1%nat) as [A1 L1]. cbn [fst] in *. rewrite PX in A0, A1, L0, L1. unfold raw_phi in A0, A1, L0, L1. cbn [l_topics m left_lda left_topics] in A0, A1, L0, L1. rewrite G1 in A0, A1, L0, L1 by lia.
  rewrite exp_plus, exp_ln in A0 by lra. rewrite exp_plus, exp_0 in A1. rewrite ln_mult, ln_exp in L0, L1 by lra. fold (round psi m d (init_post m d p)) in A0, A1, L0, L1. fold p1 in A0, A1, L0, L1.
  assert (B0 : p_phi p1 0%nat 0%nat = 3 / 4) by (rewrite A0; field; lra). assert (B1 : p_phi p1 0%nat 1%nat = 1 / 4) by (rewrite A1; field; lra). clear A0 A1.
  assert (GG : forall k, (k < 2)%nat -> p_gamma p1 k = 3 / 2) by (intros k Hk; now apply G1).
  assert (E1 : lda_lhood psi lgam m d p1 = l1).
  { unfold l1, C. unfold lda_lhood, sumn, lhood_term. cbn [l_K m left_lda seq map]. unfold numbered, d. cbn [length seq combine map fst snd]. unfold Rsum. cbn [fold_right]. rewrite B0, B1, L0, L1, !GG by lia.
    unfold init_post, z. cbn [p_gamma p_phi p_log length Nat.ltb Nat.leb l_alpha l_K l_topics left_topics left_lda m]. unfold total. cbn [map snd]. unfold Rsum. cbn [fold_right INR].
    replace (1 + (1 + 0) / (1 + 1)) with (3 / 2) by lra.
    destruct (Rlt_dec 0 (3 / 4)) as [_|N]; [|exfalso; apply N; lra]. destruct (Rlt_dec 0 (1 / 4)) as [_|N]; [|exfalso; apply N; lra]. destruct (Rlt_dec 0 (1 / (1 + 1))) as [_|N]; [|exfalso; apply N; lra]. lra. }
  assert (G2 : p_gamma (round psi m d p1) 0%nat = 7 / 4).
  { unfold round, update_phi. cbn [p_gamma]. rewrite update_gamma_is. unfold numbered. cbn [d length seq combine map fst snd]. unfold Rsum. cbn [fold_right]. rewrite B0. cbn [l_alpha m left_lda]. lra. }
  assert (TD : total d = 1) by (unfold total, d, Rsum; cbn; ring).
  unfold fit_post. fold m. fold d. assert (FB : forallb (fun wc => (fst wc <? l_W m)%nat) d = true) by reflexivity. rewrite FB. cbn [negb]. fold p1. rewrite E0, E1, TD, Rmult_1_r.
  cbn [post_loop]. destruct (above (rel_change (l0 - l1) l0) lda_tol); cbn [andb Nat.leb].
  - rewrite andb_false_r. do 3 eexists. split; [reflexivity | exact G2].
  - do 3 eexists. split; [reflexivity | now apply GG].
Qed.
Theorem leftovers_refuted : forall psi lgam, exists K W alphas chains ts mi d1 d1' d2 st st',
  infer psi lgam K W alphas chains ts mi [d1; d2] = Ok st /\ infer psi lgam K W alphas chains ts mi [d1'; d2] = Ok st' /\ i_times st = i_times st' /\ i_gammas st 1%nat 0%nat <> i_gammas st' 1%nat 0%nat.
Proof.
  intros psi lgam. destruct (left_fit psi lgam) as [C HC]. set (l1 := C + ln 4 - ln 3 / 2) in *. set (u := 2 * (2 * Rabs l1 + 1 + Rabs C)). specialize (HC u). cbn zeta in HC. change (C + ln 4 - ln 3 / 2) with l1 in HC.
  set (chain := fun k => mkS 4 1 1 1 (fun _ _ => 0) (fun w _ => left_topics u w k) (fun _ _ => 0) (fun _ _ => 0) (fun _ _ => 0) (fun _ _ => 0) (fun _ => 0)).
  set (d2 := [(0%nat, 1)] : doc) in *. set (m := mkLda 2 4 (fun _ => 1) (fun w k => s_elog (nth k [chain 0%nat; chain 1%nat] (new_sslm 0 0 0 0)) w 0%nat)).
  assert (ME : forall d p, fit_post psi lgam m d 1 p = fit_post psi lgam (left_lda u) d 1 p).
  { assert (E : m = left_lda u); [|now rewrite E]. unfold m, left_lda. f_equal. apply functional_extensionality. intros w. apply functional_extensionality. intros k.
    destruct k as [|[|k]]; [reflexivity | reflexivity|]. destruct w as [|[|[|[|w]]]]; destruct k; reflexivity. }
  assert (RUN : forall d q lh it p' lh' it', fit_post psi lgam (left_lda u) d 1 (mkP (fun _ => 0) (fun _ _ => 0) (fun _ _ => 0)) = Ok (q, lh, it) -> fit_post psi lgam (left_lda u) d2 1 q = Ok (p', lh', it') ->
    exists st, infer psi lgam 2 4 (fun _ => 1) [chain 0%nat; chain 1%nat] [2%nat] 1 [d; d2] = Ok st /\ i_times st = [0; 0]%nat /\ i_gammas st 1%nat = p_gamma p').
  { intros d q lh it p' lh' it' H1 H2. unfold infer, make_slice. cbn [forallb s_T chain Nat.ltb Nat.leb andb negb rbind rfold]. fold m. unfold infer_doc at 1. cbn [i_time i_index i_lda i_post cumsum firstn fold_right Nat.add Nat.ltb Nat.leb rbind fst snd]. rewrite ME, H1. cbn [rbind].
    unfold infer_doc. cbn [i_time i_index i_lda i_post cumsum firstn fold_right Nat.add Nat.ltb Nat.leb rbind fst snd]. rewrite ME, H2. cbn [rbind]. eexists. split; [reflexivity|]. split; [reflexivity|]. reflexivity. }
  set (z := mkP (fun _ => 0) (fun _ _ => 0) (fun _ _ => 0)) in *.
  destruct (mirror psi lgam u (ln 3) 0 1 1 z ltac:(lia) ltac:(lia) eq_refl eq_refl eq_refl eq_refl) as [q [lh [it [F1 [X0 X1]]]]].
  destruct (mirror psi lgam u u 2 3 1 z ltac:(lia) ltac:(lia) eq_refl eq_refl eq_refl eq_refl) as [q' [lh' [it' [F2 [Y0 Y1]]]]].
  rewrite exp_ln in X0, X1 by lra. replace (3 + 1) with 4 in X0, X1 by lra.
  destruct (HC q) as [p1 [lh1 [it1 [F3 G1]]]]. destruct (HC q') as [p2 [lh2 [it2 [F4 G2]]]].
  destruct (RUN _ _ _ _ _ _ _ F1 F3) as [st [R1 [T1 S1]]]. destruct (RUN _ _ _ _ _ _ _ F2 F4) as [st' [R2 [T2 S2]]].
  exists 2%nat, 4%nat, (fun _ => 1), [chain 0%nat; chain 1%nat], [2%nat], 1%nat, [(0%nat, 1); (1%nat, 1)], [(2%nat, 1); (3%nat, 1)], d2, st, st'. split; [exact R1|]. split; [exact R2|]. split; [congruence|].
  rewrite S1, S2, G1, G2, X0, X1, Y0, Y1.
  assert (A1 : above (rel_change (C - (ln 3 - ln 4 + - ln 4) / 2 - l1) (C - (ln 3 - ln 4 + - ln 4) / 2)) lda_tol = false).
  { replace (C - (ln 3 - ln 4 + - ln 4) / 2) with l1 by (unfold l1; lra). unfold rel_change, Rminus. rewrite Rplus_opp_r. destruct (Req_EM_T l1 0) as [E|E].
    - destruct (Req_EM_T 0 0) as [_|N]; [reflexivity | lra].
    - cbn. unfold Rdiv. rewrite Rmult_0_l, Rabs_R0. unfold lda_tol. destruct (Rlt_dec _ _) as [H|H]; [lra | reflexivity]. }
  assert (A2 : above (rel_change (C - (u - ln (exp u + 1) + - ln (exp u + 1)) / 2 - l1) (C - (u - ln (exp u + 1) + - ln (exp u + 1)) / 2)) lda_tol = true).
  { assert (LB : u < ln (exp u + 1)) by (rewrite <- (ln_exp u) at 1; apply ln_increasing; [apply exp_pos | lra]).
    set (l0 := C - (u - ln (exp u + 1) + - ln (exp u + 1)) / 2). assert (B : 2 * Rabs l1 + 1 < l0).
    { unfold l0. assert (u / 2 = 2 * Rabs l1 + 1 + Rabs C) by (unfold u; lra). pose proof (Rle_abs (- C)). rewrite Rabs_Ropp in *. lra. }
    pose proof (Rle_abs l1). pose proof (Rabs_pos l1). unfold rel_change. destruct (Req_EM_T l0 0) as [E|_]; [lra|]. cbn. unfold lda_tol. destruct (Rlt_dec _ _) as [_|N]; [reflexivity|]. exfalso. apply N.
    assert (1 / 2 <= (l0 - l1) / l0) by (apply (Rmult_le_reg_r l0); [lra|]; replace ((l0 - l1) / l0 * l0) with (l0 - l1) by (field; lra); lra). rewrite Rabs_right; lra. }
  rewrite A1, A2. lra.
Qed.
Print Assumptions leftovers_refuted.
(** The start: every word and every topic alike *)
Theorem start_values : forall m d p, (0 < l_K m)%nat -> let p0 := init_post m d p in
  (forall n k, (n < length d)%nat -> (k < l_K m)%nat -> p_phi p0 n k = 1 / INR (l_K m)) /\ (forall k, p_gamma p0 k = l_alpha m 0%nat + total d / INR (l_K m)) /\ p_log p0 = p_log p.
Proof. intros m d p HK p0. split; [|split; reflexivity]. intros n k Hn _. unfold p0, init_post. cbn [p_phi]. now rewrite (proj2 (Nat.ltb_lt _ _) Hn). Qed.
Print Assumptions start_values.

(** ** The corpus *)
(** Document n is fitted with the topics of its slice, its mixture is the result, and the bound of the corpus is the sum of their bounds. *)
Theorem documents_fitted : forall psi lgam K W alphas chains ts mi corpus st, (0 < K)%nat -> infer psi lgam K W alphas chains ts mi corpus = Ok st ->
  exists lhs, length lhs = length corpus /\ i_bound st = fold_right Rplus 0 lhs /\
  forall n, (n < length corpus)%nat -> exists l p p' it, fit_post psi lgam l (nth n corpus []) mi p = Ok (p', nth n lhs 0, it) /\ i_gammas st n = p_gamma p' /\
    l_K l = K /\ l_W l = W /\ l_alpha l = alphas /\ (forall w k, l_topics l w k = s_elog (nth k chains (new_sslm 0 0 0 0)) w (nth n (i_times st) 0%nat)).
Proof.
  intros psi lgam K W alphas chains ts mi corpus st HK H. destruct (infer_inv psi lgam K W alphas HK chains ts mi corpus st H) as [I _].
  destruct (v_docs _ _ _ _ _ _ _ _ _ _ I) as [lhs [L1 [L2 L3]]]. exists lhs. split; [exact L1|]. split; [exact L2|]. intros n Hn. destruct (L3 n Hn) as [l [p [p' [it [A [B C]]]]]].
  exists l, p, p', it. split; [exact B|]. split; [exact C|]. unfold make_slice in A. destruct (negb _); [discriminate|]. injection A as <-. repeat split.
Qed.
Print Assumptions documents_fitted.
(** Asking for a slice that is not there *)
Theorem slice_needed : forall psi lgam K W alphas chains ts mi corpus st n, (0 < K)%nat -> infer psi lgam K W alphas chains ts mi corpus = Ok st -> (n < length corpus)%nat ->
  Forall (fun c => (nth n (i_times st) 0 < s_T c)%nat) chains.
Proof.
  intros psi lgam K W alphas chains ts mi corpus st n HK H Hn. destruct (infer_inv psi lgam K W alphas HK chains ts mi corpus st H) as [I _].
  destruct (v_docs _ _ _ _ _ _ _ _ _ _ I) as [lhs [_ [_ L3]]]. destruct (L3 n Hn) as [l [p [p' [it [A _]]]]]. now destruct (make_slice_shape _ _ _ _ _ _ A) as [_ [_ [_ F]]].
Qed.
Print Assumptions slice_needed.
(** Topic k is fitted to its statistics; the bound is the sum. *)
Theorem topics_fitted : forall cg suff chains k chains' b, fit_topics cg chains suff k = Ok (chains', b) ->
  exists bs, length chains' = length chains /\ length bs = length chains /\ b = fold_right Rplus 0 bs /\
  forall i c, nth_error chains i = Some c -> exists c' bi, nth_error chains' i = Some c' /\ nth_error bs i = Some bi /\ fit_sslm cg c (suff (k + i)%nat) = Ok (c', bi).
Proof.
  intros cg suff chains. induction chains as [|c chains IH]; intros k chains' b H; cbn [fit_topics] in H.
  - injection H as <- <-. exists []. repeat split. intros i c E. destruct i; discriminate.
  - destruct (fit_sslm cg c (suff k)) as [[c1 b1]|e] eqn:E1; [|discriminate]. cbn [rbind fst snd] in H. destruct (fit_topics cg chains suff (S k)) as [[c2 b2]|e] eqn:E2; [|discriminate].
    cbn [rbind fst snd] in H. injection H as <- <-. destruct (IH _ _ _ E2) as [bs [A [B [C D]]]]. exists (b1 :: bs). cbn [length]. split; [lia|]. split; [lia|]. split; [cbn; now rewrite C|].
    intros [|i] x E; cbn in E |- *.
    + injection E as <-. exists c1, b1. rewrite Nat.add_0_r. auto.
    + destruct (D i x E) as [c' [bi [X1 [X2 X3]]]]. exists c', bi. rewrite <- plus_n_Sm. auto.
Qed.
Print Assumptions topics_fitted.
(** The bound that fitting returns is that of the chain, for the counts and their sums over the words *)
Theorem fitted_bound : forall cg s sstats s' b, fit_sslm cg s sstats = Ok (s', b) ->
  b = full_bound (s_W s') (s_T s') (s_q s') (s_mean s') (s_var s') (s_zeta s') sstats (fun t => sumn (s_W s) (fun w => sstats w t)) -
      sumn (s_T s') (fun t => sumn (Nat.min t (s_W s')) (fun j => word_term s' sstats t (s_W s' - t + j))).
Proof.
  intros cg s sstats s' b H. unfold fit_sslm in H. destruct (s_W s =? 0)%nat; [discriminate|]. set (tot := fun t => sumn (s_W s) (fun w => sstats w t)) in *.
  destruct (compute_bound (all_variances s) sstats tot) as [[s1 b1]|e] eqn:E1; [|discriminate]. cbn [rbind fst snd] in H.
  destruct (fit_loop cg 2 s1 sstats tot b1 _) as [[s2 b2]|e] eqn:E2; [|discriminate]. cbn [rbind fst snd] in H. injection H as <- <-.
  assert (G : forall fuel s0 x b0 c s2 b2, compute_bound x sstats tot = Ok (s0, b0) -> fit_loop cg fuel s0 sstats tot b0 c = Ok (s2, b2) -> exists y, compute_bound y sstats tot = Ok (s2, b2)).
  { intros fuel. induction fuel as [|fuel IH]; intros s0 x b0 c s3 b3 HX HF; cbn [fit_loop] in HF; [injection HF as <- <-; eauto|]. destruct (above c fit_tol); [|injection HF as <- <-; eauto].
    destruct (compute_bound (update_obs cg s0 sstats tot) sstats tot) as [[s4 b4]|e] eqn:E4; [|discriminate]. cbn [rbind fst snd] in HF. now apply (IH _ _ _ _ _ _ E4 HF). }
  destruct (G _ _ _ _ _ _ _ E1 E2) as [y Hy]. exact (bound_exact _ _ _ _ _ Hy).
Qed.
Print Assumptions fitted_bound.
(** ** The rounds *)
(** With em_max_iter 0 there is exactly one: it starts with the topics of the initial statistics. *)
Theorem one_round : forall psi lgam cg W r q alphas ts corpus K init mi em_min chains gammas b it mi' c, (em_min <= 1)%nat ->
  fit_lda_seq psi lgam cg W r q alphas ts corpus K init mi em_min 0 = Ok ((chains, gammas), b, it, mi', c) ->
  it = 1%nat /\ exists i bt, infer psi lgam K W alphas (map (fun k => counts_init (new_sslm W (length ts) r q) r q (fun w => init w k)) (seq 0 K)) ts mi corpus = Ok i /\
    fit_topics cg (map (fun k => counts_init (new_sslm W (length ts) r q) r q (fun w => init w k)) (seq 0 K)) (i_suff i) 0 = Ok (chains, bt) /\ b = i_bound i + bt /\ gammas = i_gammas i /\
    mi' = (if Rlt_dec b 0 then if (mi <? 10)%nat then (mi * 2)%nat else mi else mi).
Proof.
  intros psi lgam cg W r q alphas ts corpus K init mi em_min chains gammas b it mi' c HM H. destruct (training_rounds _ _ _ _ _ _ _ _ _ _ _ H) as [I1 [I2 _]].
  assert (it = 1%nat) by lia. subst it. split; [reflexivity|]. unfold fit_lda_seq, em_fit in H. set (chains0 := map _ (seq 0 K)) in *.
  replace (em_min + 0 + 1)%nat with (S em_min) in H by lia. cbn [em_loop] in H. assert (AB : above (Fin (em_tol + 1)) em_tol = true) by (cbn; destruct (Rlt_dec _ _); [reflexivity | lra]).
  rewrite AB in H. cbn [andb Nat.leb] in H. rewrite orb_true_r in H. unfold em_step in H at 1. cbn [fst] in H.
  destruct (infer psi lgam K W alphas chains0 ts mi corpus) as [i|e] eqn:Ei; [|discriminate]. cbn [rbind] in H. destruct (fit_topics cg chains0 (i_suff i) 0) as [[c1 bt]|e] eqn:Et; [|discriminate]. cbn [rbind fst snd] in H.
  exists i, bt. split; [reflexivity|].
  assert (ND : forall v, below (rel_change (v - 0) 0) em_tol = false) by (intros v; unfold rel_change; destruct (Req_EM_T 0 0) as [_|N]; [|lra]; now destruct (Req_EM_T (v - 0) 0)).
  rewrite ND in H. rewrite Rminus_0_r in H.
  assert (E : forall fuel mi0 c0 b0, (fuel <= 1)%nat -> em_loop (em_step psi lgam cg K W alphas ts corpus) fuel em_min 0 1 mi0 b0 c0 (c1, i_gammas i) = Ok ((c1, i_gammas i), b0, 1%nat, mi0, c0)).
  { intros fuel mi0 c0 b0 Hf. destruct fuel as [|fuel]; [reflexivity|]. cbn [em_loop]. rewrite (proj2 (Nat.ltb_ge _ _) HM). rewrite andb_false_r. reflexivity. }
  rewrite E in H by lia. injection H as <- <- <- <- _. split; [exact Et|]. repeat split.
Qed.
Print Assumptions one_round.
(** The limit of the inference: doubled while it is small, or 500. *)
Theorem limit_values : forall St (step : nat -> nat -> St -> result (R * St)) mi em_min em_max s s' b it mi' c, em_fit step mi em_min em_max s = Ok (s', b, it, mi', c) ->
  mi' = 500%nat \/ exists j, mi' = (mi * 2 ^ j)%nat /\ (j <= it)%nat /\ (j = 0%nat \/ (mi * 2 ^ (j - 1) < 10)%nat).
Proof.
  intros St step mi em_min em_max s s' b it mi' c H. unfold em_fit in H.
  set (P := fun it0 mi0 => mi0 = 500%nat \/ exists j, mi0 = (mi * 2 ^ j)%nat /\ (j <= it0)%nat /\ (j = 0%nat \/ (mi * 2 ^ (j - 1) < 10)%nat)).
  assert (G : forall fuel it0 mi0 b0 c0 x, P it0 mi0 -> em_loop step fuel em_min em_max it0 mi0 b0 c0 x = Ok (s', b, it, mi', c) -> P it mi').
  { intros fuel. induction fuel as [|fuel IH]; intros it0 mi0 b0 c0 x HP Hx; cbn [em_loop] in Hx; [injection Hx; intros; subst; exact HP|]. destruct (_ || _); [|injection Hx; intros; subst; exact HP].
    destruct (step it0 mi0 x) as [[b1 s1]|e]; [|discriminate]. cbn [rbind fst snd] in Hx. refine (IH _ _ _ _ _ _ Hx). destruct (below _ em_tol); [now left|].
    assert (K0 : P (S it0) mi0) by (destruct HP as [E|[j [E1 [E2 E3]]]]; [now left | right; exists j; repeat split; [exact E1 | lia | exact E3]]).
    destruct (Rlt_dec (b1 - b0) 0); [|exact K0]. destruct (mi0 <? 10)%nat eqn:E; [|exact K0]. apply Nat.ltb_lt in E. destruct HP as [X|[j [E1 [E2 E3]]]]; [lia|]. right. exists (S j). split; [|split].
    - rewrite E1. cbn [Nat.pow]. lia.
    - lia.
    - right. replace (S j - 1)%nat with j by lia. lia. }
  refine (G _ _ _ _ _ _ _ H). right. exists 0%nat. cbn. repeat split; [lia | lia | now left].
Qed.
Print Assumptions limit_values.
Example limit_example : em_fit (fun it _ _ => Ok (if (it =? 0)%nat then -1 else if (it =? 1)%nat then -2 else -2, tt)) 3 0 2 tt = Ok (tt, -2, 3%nat, 500%nat, Fin 1) /\
  em_fit (fun it _ _ => Ok (if (it =? 0)%nat then -1 else -2, tt)) 3 0 1 tt = Ok (tt, -2, 2%nat, 12%nat, Fin 1).
Proof.
  assert (A1 : above (Fin (em_tol + 1)) em_tol = true) by (cbn; destruct (Rlt_dec _ _); [reflexivity | lra]).
  assert (R0 : rel_change (-1 - 0) 0 = Inf) by (unfold rel_change; destruct (Req_EM_T 0 0) as [_|N]; [|lra]; destruct (Req_EM_T (-1 - 0) 0) as [N|_]; [lra | reflexivity]).
  assert (R1 : rel_change (-2 - -1) (-1) = Fin 1) by (unfold rel_change; destruct (Req_EM_T (-1) 0) as [N|_]; [lra|]; f_equal; replace ((-2 - -1) / -1) with 1 by lra; apply Rabs_R1).
  assert (R2 : rel_change (-2 - -2) (-2) = Fin 0) by (unfold rel_change; destruct (Req_EM_T (-2) 0) as [N|_]; [lra|]; f_equal; replace ((-2 - -2) / -2) with 0 by lra; apply Rabs_R0).
  assert (B1 : below (Fin 1) em_tol = false) by (cbn; unfold em_tol; destruct (Rlt_dec _ _) as [H|_]; [lra | reflexivity]).
  assert (B0 : below (Fin 0) em_tol = true) by (cbn; unfold em_tol; destruct (Rlt_dec _ _) as [_|H]; [reflexivity | lra]).
  assert (A2 : above (Fin 1) em_tol = true) by (cbn; unfold em_tol; destruct (Rlt_dec _ _) as [_|H]; [reflexivity | lra]).
  assert (N1 : forall A (x y : A), (if Rlt_dec (-1 - 0) 0 then x else y) = x) by (intros; destruct (Rlt_dec (-1 - 0) 0) as [_|H]; [reflexivity | lra]).
  assert (N2 : forall A (x y : A), (if Rlt_dec (-2 - -1) 0 then x else y) = x) by (intros; destruct (Rlt_dec (-2 - -1) 0) as [_|H]; [reflexivity | lra]).
  assert (AI : above Inf em_tol = true) by reflexivity. assert (BI : below Inf em_tol = false) by reflexivity.
  split; unfold em_fit; cbn [Nat.add]; repeat (cbn [em_loop Nat.ltb Nat.leb Nat.eqb andb orb rbind fst snd Nat.mul Nat.add]; rewrite ?A1, ?R0, ?R1, ?R2, ?N1, ?N2, ?A2, ?B1, ?B0, ?AI, ?BI); reflexivity.
Qed.
(** doc_topics is a distribution. *)
Theorem document_topics : forall psi lgam cg W r q alphas ts (corpus : list doc) K init mi em_min em_max chains gammas b it mi' c n, (0 < K)%nat ->
  fit_lda_seq psi lgam cg W r q alphas ts corpus K init mi em_min em_max = Ok ((chains, gammas), b, it, mi', c) -> (n < length corpus)%nat ->
  (forall k, (k < K)%nat -> 0 < alphas k) -> Forall (fun wc => 0 <= snd wc) (nth n corpus []) ->
  distribution K (doc_topics K gammas n) /\ forall k, (k < K)%nat -> doc_topics K gammas n k * (sumn K alphas + total (nth n corpus [])) = gammas n k.
Proof.
  intros psi lgam cg W r q alphas ts corpus K init mi em_min em_max chains gammas b it mi' c n HK H Hn HA HC. unfold fit_lda_seq in H.
  destruct (training_rounds _ _ _ _ _ _ _ _ _ _ _ H) as [I1 _]. unfold em_fit in H.
  assert (E : exists ch mi0 i, infer psi lgam K W alphas ch ts mi0 corpus = Ok i /\ gammas = i_gammas i).
  { destruct (em_loop_last _ _ (fun _ => True) (fun _ _ _ _ _ _ _ => Logic.I) _ _ _ _ _ _ _ _ _ _ _ _ _ Logic.I H) as [E|[it0 [mi0 [s0 [_ E]]]]]; [lia|]. unfold em_step in E.
    destruct (infer psi lgam K W alphas (fst s0) ts mi0 corpus) as [i|e] eqn:Ei; [|discriminate]. cbn [rbind] in E. destruct (fit_topics _ _ _ _) as [cb|e]; [|discriminate]. cbn [rbind] in E. injection E as _ _ E.
    exists (fst s0), mi0, i. auto. }
  destruct E as [ch [mi0 [i [Ei ->]]]]. destruct (documents_fitted _ _ _ _ _ _ _ _ _ _ HK Ei) as [lhs [_ [_ D]]]. destruct (D n Hn) as [l [p [p' [it0 [A [B [C1 [C2 [C3 _]]]]]]]]].
  assert (HKl : (0 < l_K l)%nat) by lia. destruct (posterior_of_document _ _ _ _ _ _ _ _ _ HKl A) as [X1 [X2 _]]. rewrite C1, C3 in X1, X2. rewrite <- B in X1, X2.
  assert (G : forall k, (k < K)%nat -> 0 < i_gammas i n k) by (intros k Hk; specialize (X2 HC k Hk); specialize (HA k Hk); lra).
  assert (PS : 0 < sumn K (i_gammas i n)) by (now apply sumn_pos). unfold doc_topics. split; [split|].
  - intros k Hk. apply Rdiv_lt_0_compat; [now apply G | exact PS].
  - unfold Rdiv. rewrite sumn_scal_r. apply Rinv_r. lra.
  - intros k Hk. rewrite <- X1. field. lra.
Qed.
Print Assumptions document_topics.
