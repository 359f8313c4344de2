(** Inference of the author-topic model (C96). *)
From Coq Require Import Reals Lra FunctionalExtensionality.
From Verif Require Import Base MatReal_Model MatReal_Proofs LdaTrain_Model LdaTrain_Proofs2 AtInfer_Model AtInfer_Proofs.
From Coq Require Import ZifyBool ZifyNat.
Local Open Scope R_scope.

(** The counts that are used. *)
Definition words (d : doc) : R := Rsum (map (fun wc => trunc (snd wc)) d).
Lemma words_cts : forall d, words d = Rsum (map snd (cts d)).
Proof. intros d. unfold words, cts. rewrite map_map. reflexivity. Qed.

(** A document is shared out among its authors and the topics: what an author gets above its prior, divided by the number of its
    documents, adds up over the authors to the words of the document. *)
Theorem at_words_shared : forall K eps edir ndocs p gamma authors d, (0 < K)%nat -> 0 <= eps -> (forall n v i, 0 < edir n v i) -> (0 < q_iterations p)%nat -> authors <> [] ->
  (forall a, In a authors -> (0 < ndocs a)%nat) -> 0 <= q_rho p -> Forall (fun wc => 0 <= snd wc) d -> (forall k w, (k < K)%nat -> In w (map fst d) -> 0 < q_beta p k w) ->
  let ss := at_doc K eps edir ndocs p gamma authors d in
  let gain s := sumn K (fun k => s_gamma s k - ((1 - q_rho p) * gamma (s_author s) k + q_rho p * q_alpha p k)) in
  map s_author ss = authors /\
  (forall s k, In s ss -> (k < K)%nat -> (1 - q_rho p) * gamma (s_author s) k + q_rho p * q_alpha p k <= s_gamma s k) /\
  (forall s, In s ss -> 0 <= gain s <= INR (ndocs (s_author s)) * (q_rho p * words d)) /\
  Rsum (map (fun s => gain s / INR (ndocs (s_author s))) ss) <= q_rho p * words d /\
  (eps = 0 -> Rsum (map (fun s => gain s / INR (ndocs (s_author s))) ss) = q_rho p * words d).
Proof.
  intros K eps edir ndocs p gamma authors d HK HE HD HI HA HN HR HC HB ss gain. destruct (doc_authors K eps edir ndocs p gamma authors d) as (DA & DO). fold ss in DA, DO. split; [exact DA|].
  assert (T0 : theta_pos (map (fun a => Slot a (gamma a) (gamma a) (edir K (gamma a))) authors)) by (intros s k I; apply in_map_iff in I; destruct I as (a & <- & _); apply HD).
  destruct (iterate_last_step K eps edir ndocs HD (q_iterations p) p (cts d) _ HI T0) as (ss' & E & T & A & B). change (ss = at_step K eps edir ndocs p (cts d) ss') in E.
  assert (NE : ss' <> []) by (intros ->; rewrite map_map in A; destruct authors; [congruence | discriminate]).
  assert (OLD : forall s, In s ss -> s_old s = gamma (s_author s)) by (intros s I; apply (old_of K eps edir ndocs p gamma authors d s I)).
  assert (AU : forall s, In s ss -> (0 < ndocs (s_author s))%nat) by (intros s I; apply HN; rewrite <- DA; apply in_map; exact I).
  assert (CC : Forall (fun wc => 0 <= snd wc) (cts d)) by (apply cts_ok; exact HC). rewrite Forall_forall in CC.
  assert (BB : forall w, In w (map fst (cts d)) -> forall k, (k < K)%nat -> 0 < q_beta p k w) by (intros w I k L; rewrite cts_words in I; apply HB; assumption).
  set (R0 := fun k => Rsum (map (fun wc => snd wc / at_phinorm K eps (q_beta p) ss' (fst wc) * q_beta p k (fst wc)) (cts d))).
  assert (RP : forall k, (k < K)%nat -> 0 <= R0 k).
  { intros k L. apply Rsum_nonneg. intros x I. apply in_map_iff in I. destruct I as ((w, c) & <- & I). cbn [fst snd]. assert (Iw : In w (map fst (cts d))) by (apply in_map_iff; exists (w, c); auto).
    apply Rmult_le_pos; [|apply Rlt_le; apply BB; assumption]. apply Rmult_le_pos; [apply (CC (w, c) I)|]. apply Rlt_le, Rinv_0_lt_compat. apply (phin_pos K eps); auto. }
  assert (GA : forall x k, new_gamma K eps ndocs p (cts d) ss' x k = (1 - q_rho p) * s_old x k + q_rho p * (q_alpha p k + INR (ndocs (s_author x)) * s_theta x k * R0 k)) by reflexivity.
  set (share := fun x => sumn K (fun k => s_theta x k * R0 k)).
  assert (GS : forall x, In x ss' -> gain (Slot (s_author x) (s_old x) (new_gamma K eps ndocs p (cts d) ss' x) (edir K (new_gamma K eps ndocs p (cts d) ss' x))) = INR (ndocs (s_author x)) * (q_rho p * share x)).
  { intros x Ix. assert (O : s_old x = gamma (s_author x)).
    { apply (OLD (Slot (s_author x) (s_old x) (new_gamma K eps ndocs p (cts d) ss' x) (edir K (new_gamma K eps ndocs p (cts d) ss' x)))). rewrite E. unfold at_step. apply in_map_iff. exists x. auto. }
    unfold gain, share. cbn [s_gamma s_author]. rewrite <- !sumn_scal. apply sumn_ext. intros k _. rewrite GA, O. ring. }
  assert (SP : forall x, In x ss' -> 0 <= share x) by (intros x Ix; apply sumn_nonneg; intros k L; apply Rmult_le_pos; [apply Rlt_le; apply T; exact Ix | apply RP; exact L]).
  assert (TOT : Rsum (map share ss') <= words d /\ (eps = 0 -> Rsum (map share ss') = words d)).
  { unfold share, R0. rewrite (share_sum K eps), words_cts. assert (W : forall w c, In (w, c) (cts d) -> 0 <= c * (sumn K (fun k => theta_sum ss' k * q_beta p k w) / at_phinorm K eps (q_beta p) ss' w) <= c /\ (eps = 0 -> c * (sumn K (fun k => theta_sum ss' k * q_beta p k w) / at_phinorm K eps (q_beta p) ss' w) = c)).
    { intros w c I. assert (Iw : In w (map fst (cts d))) by (apply in_map_iff; exists (w, c); auto). destruct (phin_pos K eps (q_beta p) ss' w HK HE NE T (BB w Iw)) as (P1 & P2).
      destruct (word_share (sumn K (fun k => theta_sum ss' k * q_beta p k w)) eps c ltac:(lra) HE (CC (w, c) I)) as (X & Y). split; [exact X | intros Z0; apply Y; assumption]. }
    split; [|intros Z0]; [apply Rsum_le | apply Rsum_ext]; intros (w, c) I; cbn [fst snd]; destruct (W w c I) as (X & Y); [lra | apply Y; exact Z0]. }
  assert (ONE : forall x, In x ss' -> share x <= words d).
  { intros x Ix. apply Rle_trans with (Rsum (map share ss')); [|apply TOT]. clearbody share. clear -SP Ix. induction ss' as [|y ss' IH]; [contradiction|]. cbn [map]. rewrite Rsum_cons. destruct Ix as [->|Ix].
    - assert (0 <= Rsum (map share ss')); [|lra]. apply Rsum_nonneg. intros z I. apply in_map_iff in I. destruct I as (v & <- & I). apply SP. right. exact I.
    - assert (0 <= share y) by (apply SP; left; reflexivity). assert (share x <= Rsum (map share ss')) by (apply IH; [intros; apply SP; right; assumption | exact Ix]). lra. }
  assert (SUM : Rsum (map (fun s => gain s / INR (ndocs (s_author s))) ss) = q_rho p * Rsum (map share ss')).
  { rewrite <- Rsum_scal, E. unfold at_step. rewrite map_map. cbv zeta. apply Rsum_ext. intros x Ix. rewrite (GS x Ix). cbn [s_author]. field. apply Rgt_not_eq. apply lt_0_INR.
    apply HN. rewrite map_map in A. cbn [s_author] in A. rewrite map_id in A. rewrite <- A. apply in_map. exact Ix. }
  split; [|split].
  - intros s k I L. rewrite <- (OLD s I). rewrite E in I. unfold at_step in I. apply in_map_iff in I. destruct I as (x & <- & Ix). cbn [s_gamma s_old]. rewrite GA.
    assert (0 <= INR (ndocs (s_author x)) * s_theta x k * R0 k); [|nra]. apply Rmult_le_pos; [apply Rmult_le_pos; [apply pos_INR | apply Rlt_le; apply T; exact Ix] | apply RP; exact L].
  - intros s I. rewrite E in I. unfold at_step in I. apply in_map_iff in I. destruct I as (x & <- & Ix). rewrite (GS x Ix). cbn [s_author]. split.
    + apply Rmult_le_pos; [apply pos_INR | apply Rmult_le_pos; [exact HR | apply SP; exact Ix]].
    + apply Rmult_le_compat_l; [apply pos_INR|]. apply Rmult_le_compat_l; [exact HR | apply ONE; exact Ix].
  - rewrite SUM. split; [apply Rmult_le_compat_l; [exact HR | apply TOT]|]. intros Z0. f_equal. apply TOT. exact Z0.
Qed.
Print Assumptions at_words_shared.

(** Rows stay positive, and only rows of authors of the documents change, also if an exception comes. *)
Theorem at_rows : forall K V eps edir ndocs p chunk gamma, (0 < K)%nat -> 0 < eps -> (forall n v i, 0 < edir n v i) -> 0 <= q_rho p <= 1 ->
  (forall k, (k < K)%nat -> 0 < q_alpha p k) -> (forall k w, (k < K)%nat -> 0 < q_beta p k w) -> Forall (fun ad => Forall (fun wc => 0 <= snd wc) (snd ad)) chunk ->
  (forall a k, (k < K)%nat -> 0 < gamma a k) ->
  let gamma' := fst (at_inference K V eps edir ndocs p gamma chunk) in
  (forall a k, (k < K)%nat -> 0 < gamma' a k) /\ (forall a, (forall ad, In ad chunk -> ~ In a (fst ad)) -> gamma' a = gamma a).
Proof.
  intros K V eps edir ndocs p chunk gamma HK HE HD HR HA HB HC HG gamma'. assert (E : gamma' = fst (at_loop K V eps edir ndocs p chunk gamma (fun _ _ => 0))) by (unfold gamma', at_inference; destruct (at_loop _ _ _ _ _ _ _ _ _); reflexivity).
  rewrite E. clear E gamma'. generalize (fun _ _ : nat => 0). revert gamma HG. induction HC as [|(authors, d) chunk Hd HC IH]; intros gamma HG acc; [split; [exact HG | reflexivity]|].
  cbn [at_loop]. destruct (in_vocab V d); [|split; [exact HG | reflexivity]]. set (ss := at_doc K eps edir ndocs p gamma authors d). destruct (doc_authors K eps edir ndocs p gamma authors d) as (DA & _). fold ss in DA.
  assert (POS : forall s k, In s ss -> (k < K)%nat -> 0 < s_gamma s k).
  { cbn [snd] in Hd. assert (CC := cts_ok d Hd). rewrite Forall_forall in CC. unfold ss, at_doc. set (s0 := map (fun a => Slot a (gamma a) (gamma a) (edir K (gamma a))) authors).
    assert (INV : forall n s1, theta_pos s1 -> (forall s k, In s s1 -> (k < K)%nat -> 0 < s_gamma s k /\ 0 < s_old s k) -> forall s k, In s (at_iterate K eps edir ndocs n p (cts d) s1) -> (k < K)%nat -> 0 < s_gamma s k).
    { intros n. induction n as [|n IHn]; intros s1 T G s k I L; [apply (G s k I L)|]. cbn [at_iterate] in I.
      assert (ST : forall s k, In s (at_step K eps edir ndocs p (cts d) s1) -> (k < K)%nat -> 0 < s_gamma s k /\ 0 < s_old s k).
      { intros s' j I' L'. unfold at_step in I'. apply in_map_iff in I'. destruct I' as (x & <- & Ix). cbn [s_gamma s_old]. destruct (G x j Ix L') as (_ & GO). split; [|exact GO]. unfold new_gamma.
        match goal with |- context [INR _ * _ * ?y] => set (r := y) end. assert (RP : 0 <= r).
        { apply Rsum_nonneg. intros y Iy. apply in_map_iff in Iy. destruct Iy as ((w, c) & <- & Iy). cbn [fst snd]. apply Rmult_le_pos; [|apply Rlt_le; apply HB; exact L']. apply Rmult_le_pos; [apply (CC (w, c) Iy)|]. apply Rlt_le, Rinv_0_lt_compat.
          destruct (phin_ge K eps (q_beta p) s1 w T ltac:(intros; apply HB; assumption)) as (P1 & P2). rewrite P2. lra. }
        assert (P0 : 0 <= INR (ndocs (s_author x)) * s_theta x j * r) by (apply Rmult_le_pos; [apply Rmult_le_pos; [apply pos_INR | apply Rlt_le; apply T; exact Ix] | exact RP]).
        assert (A0 := HA j L'). set (y := INR (ndocs (s_author x)) * s_theta x j * r) in *. clearbody y. destruct (Req_dec (q_rho p) 0) as [Z0|NZ]; [rewrite Z0; lra|]. assert (0 < q_rho p * (q_alpha p j + y)) by (apply Rmult_lt_0_compat; lra). assert (0 <= (1 - q_rho p) * s_old x j) by (apply Rmult_le_pos; lra). lra. }
      destruct (Rlt_dec _ _); [apply (ST s k I L)|]. apply (IHn (at_step K eps edir ndocs p (cts d) s1)); [apply theta_step; exact HD | exact ST | exact I | exact L]. }
    apply INV; intros s k I; apply in_map_iff in I; destruct I as (a & <- & _); [apply HD|]. intros L. cbn. split; apply HG; exact L. }
  assert (HG' : forall a k, (k < K)%nat -> 0 < write_rows ss gamma a k).
  { intros a k L. destruct (in_dec Nat.eq_dec a (map s_author ss)) as [J|J]; [destruct (write_some ss gamma a J) as (s & I & _ & ->); apply POS; assumption | rewrite write_other by exact J; apply HG; exact L]. }
  specialize (IH (write_rows ss gamma) HG' (at_scatter K eps p ss d acc)). destruct (at_loop K V eps edir ndocs p chunk (write_rows ss gamma) (at_scatter K eps p ss d acc)) as (gamma', rest). cbn [fst] in *. destruct IH as (P & Q). split; [exact P|].
  intros a NI. rewrite Q by (intros ad I; apply NI; right; exact I). apply write_other. rewrite DA. apply (NI (authors, d) (or_introl eq_refl)).
Qed.
Print Assumptions at_rows.

(** What is stored: the rows of the last document with the author; the documents of a chunk are used one after the other, each with the
    rows the earlier ones left. *)
Theorem at_stored : forall K V eps edir ndocs p gamma authors d, in_vocab V d = true -> NoDup authors ->
  let ss := at_doc K eps edir ndocs p gamma authors d in
  exists stats, at_inference K V eps edir ndocs p gamma [(authors, d)] = (write_rows ss gamma, Ok (map s_gamma ss, stats)) /\
  forall s, In s ss -> fst (at_inference K V eps edir ndocs p gamma [(authors, d)]) (s_author s) = s_gamma s.
Proof.
  intros K V eps edir ndocs p gamma authors d HV ND ss. unfold at_inference. cbn [at_loop]. rewrite HV. fold ss. cbn [rbind fst snd]. rewrite app_nil_r. eexists. split; [reflexivity|]. intros s I.
  destruct (doc_authors K eps edir ndocs p gamma authors d) as (DA & _). fold ss in DA. destruct (write_some ss gamma (s_author s) (in_map s_author ss s I)) as (s' & I' & A & ->). f_equal. rewrite <- DA in ND. clear -ND I I' A.
  induction ss as [|x ss IH]; [contradiction|]. cbn in ND. apply NoDup_cons_iff in ND. destruct ND as (NI & ND).
  destruct I as [->|I], I' as [->|I']; [reflexivity | exfalso; apply NI; rewrite <- A; apply in_map; exact I' | exfalso; apply NI; rewrite A; apply in_map; exact I | apply IH; assumption].
Qed.
Print Assumptions at_stored.
Theorem at_sequential : forall K V eps edir ndocs p c1 c2 gamma g1 rows1 stats1, at_inference K V eps edir ndocs p gamma c1 = (g1, Ok (rows1, stats1)) ->
  fst (at_inference K V eps edir ndocs p gamma (c1 ++ c2)) = fst (at_inference K V eps edir ndocs p g1 c2) /\
  (forall rows2 stats2, snd (at_inference K V eps edir ndocs p g1 c2) = Ok (rows2, stats2) ->
     exists stats, snd (at_inference K V eps edir ndocs p gamma (c1 ++ c2)) = Ok (rows1 ++ rows2, stats) /\ forall k w, stats k w = stats1 k w + stats2 k w).
Proof.
  intros K V eps edir ndocs p c1 c2 gamma g1 rows1 stats1 E.
  assert (ACC : forall c g a b, fst (at_loop K V eps edir ndocs p c g a) = fst (at_loop K V eps edir ndocs p c g b) /\
    match snd (at_loop K V eps edir ndocs p c g a), snd (at_loop K V eps edir ndocs p c g b) with Ok x, Ok y => fst x = fst y /\ forall k w, snd x k w - a k w = snd y k w - b k w | Err e, Err e' => e = e' | _, _ => False end).
  { induction c as [|(authors, d) c IH]; intros g a b; [cbn; split; [reflexivity|]; split; [reflexivity | intros; ring]|]. cbn [at_loop]. destruct (in_vocab V d); [|split; reflexivity]. set (ss := at_doc K eps edir ndocs p g authors d).
    specialize (IH (write_rows ss g) (at_scatter K eps p ss d a) (at_scatter K eps p ss d b)). destruct (at_loop K V eps edir ndocs p c (write_rows ss g) (at_scatter K eps p ss d a)) as (ga, ra), (at_loop K V eps edir ndocs p c (write_rows ss g) (at_scatter K eps p ss d b)) as (gb, rb). cbn [fst snd] in *. destruct IH as (-> & H). split; [reflexivity|].
    destruct ra as [(ra1, ra2)|], rb as [(rb1, rb2)|]; cbn [rbind] in *; try contradiction; [|exact H]. cbn [fst snd] in *. destruct H as (-> & H). split; [reflexivity|]. intros k w. specialize (H k w). unfold at_scatter in H. destruct (last_count (cts d) w); lra. }
  assert (APP : forall c g a g' r, at_loop K V eps edir ndocs p c g a = (g', Ok r) -> at_loop K V eps edir ndocs p (c ++ c2) g a =
    (fst (at_loop K V eps edir ndocs p c2 g' (snd r)), let* x := snd (at_loop K V eps edir ndocs p c2 g' (snd r)) in Ok (fst r ++ fst x, snd x))).
  { induction c as [|(authors, d) c IH]; intros g a g' r EL.
    - cbn in EL. injection EL as <- <-. cbn [app snd fst]. destruct (at_loop K V eps edir ndocs p c2 g a) as (y, [(z1, z2)|]); reflexivity.
    - cbn [at_loop app] in *. destruct (in_vocab V d); [|discriminate]. set (ss := at_doc K eps edir ndocs p g authors d) in *. destruct (at_loop K V eps edir ndocs p c (write_rows ss g) (at_scatter K eps p ss d a)) as (ga, ra) eqn:EA. injection EL as <- EL. destruct ra as [ra|]; [|discriminate]. cbn [rbind] in EL. injection EL as <-.
      rewrite (IH _ _ _ _ EA). cbn [fst snd]. destruct (at_loop K V eps edir ndocs p c2 ga (snd ra)) as (y, [(z1, z2)|]); cbn [fst snd rbind]; [rewrite app_assoc|]; reflexivity. }
  unfold at_inference in *. destruct (at_loop K V eps edir ndocs p c1 gamma (fun _ _ => 0)) as (g, [r|]) eqn:E1; [|discriminate]. cbn [rbind] in E. injection E as <- <- <-. rewrite (APP _ _ _ _ _ E1).
  destruct (ACC c2 g (snd r) (fun _ _ => 0)) as (A & B). destruct (at_loop K V eps edir ndocs p c2 g (snd r)) as (y, z), (at_loop K V eps edir ndocs p c2 g (fun _ _ => 0)) as (y', z'). cbn [fst snd] in *. split; [exact A|]. intros rows2 stats2 E2.
  destruct z as [(z1, z2)|], z' as [(z1', z2')|]; cbn [rbind fst snd] in *; try contradiction; [|discriminate]. injection E2 as <- <-. destruct B as (-> & B). eexists. split; [reflexivity|]. intros k w. cbn [snd]. specialize (B k w). replace (z2 k w) with (snd r k w + z2' k w) by lra. ring.
Qed.
Print Assumptions at_sequential.

(** The statistics: for every word the topics share its occurrences in the documents with authors. *)
Definition occurrences (w : nat) (chunk : list (list nat * doc)) : R :=
  Rsum (map (fun ad => Rsum (map (fun wc => trunc (snd wc)) (filter (fun wc => (fst wc =? w)%nat) (snd ad)))) (filter (fun ad => match fst ad with [] => false | _ => true end) chunk)).
Theorem at_statistics : forall K V eps edir ndocs p gamma chunk gamma' gs, (0 < K)%nat -> 0 <= eps -> (forall n v i, 0 < edir n v i) -> (forall k w, (k < K)%nat -> 0 < q_beta p k w) ->
  Forall (fun ad => NoDup (map fst (snd ad)) /\ Forall (fun wc => 0 <= snd wc) (snd ad)) chunk -> at_inference K V eps edir ndocs p gamma chunk = (gamma', Ok gs) ->
  length (fst gs) = length (concat (map fst chunk)) /\
  forall w, (forall k, (k < K)%nat -> 0 <= snd gs k w) /\ 0 <= sumn K (fun k => snd gs k w) <= occurrences w chunk /\ (eps = 0 -> sumn K (fun k => snd gs k w) = occurrences w chunk).
Proof.
  intros K V eps edir ndocs p gamma chunk gamma' gs HK HE HD HB HC E. unfold at_inference in E. destruct (at_loop K V eps edir ndocs p chunk gamma (fun _ _ => 0)) as (g1, r) eqn:EL. injection E as -> E. destruct r as [gs0|]; [|discriminate]. cbn [rbind] in E. injection E as <-. cbn [fst snd].
  assert (GEN : forall chunk gamma acc gamma' gs, Forall (fun ad => NoDup (map fst (snd ad)) /\ Forall (fun wc => 0 <= snd wc) (snd ad)) chunk -> at_loop K V eps edir ndocs p chunk gamma acc = (gamma', Ok gs) ->
    length (fst gs) = length (concat (map fst chunk)) /\ forall w, (forall k, (k < K)%nat -> acc k w <= snd gs k w) /\ sumn K (fun k => (snd gs k w - acc k w) * q_beta p k w) <= occurrences w chunk /\ (eps = 0 -> sumn K (fun k => (snd gs k w - acc k w) * q_beta p k w) = occurrences w chunk)).
  { clear -HK HE HD HB. induction chunk as [|(authors, d) chunk IH]; intros gamma acc gamma' gs HC E; cbn [at_loop] in E.
    - injection E as <- <-. split; [reflexivity|]. intros w. cbn [snd]. split; [intros; lra|]. assert (Z0 : sumn K (fun k => (acc k w - acc k w) * q_beta p k w) = 0) by (transitivity (sumn K (fun _ => 0)); [apply sumn_ext; intros; ring | apply sumn_zero]). rewrite Z0. unfold occurrences. cbn. split; [lra | reflexivity].
    - destruct (in_vocab V d); [|discriminate]. set (ss := at_doc K eps edir ndocs p gamma authors d) in E. destruct (at_loop K V eps edir ndocs p chunk (write_rows ss gamma) (at_scatter K eps p ss d acc)) as (g1, r) eqn:EL. injection E as -> E. destruct r as [gs1|]; [|discriminate]. cbn [rbind] in E. injection E as <-. cbn [fst snd].
      inversion HC as [|? ? (ND & CO) HC']; subst. cbn [snd] in ND, CO. destruct (IH _ _ _ _ HC' EL) as (LE & IHw). destruct (doc_authors K eps edir ndocs p gamma authors d) as (DA & _). fold ss in DA.
      assert (TH : theta_pos ss) by (apply theta_doc; exact HD). split; [rewrite app_length, map_length, LE; cbn [map fst concat]; rewrite app_length; f_equal; rewrite <- DA, map_length; reflexivity|].
      intros w. destruct (IHw w) as (G1 & G2 & G3). clear IHw IH EL.
      assert (NDC : NoDup (map fst (cts d))) by (rewrite cts_words; exact ND). assert (CC := cts_ok d CO). rewrite Forall_forall in CC.
      assert (OC := count_of d w ND).
      set (sc := at_scatter K eps p ss d acc) in *. assert (SC : forall k, sc k w = acc k w + match last_count (cts d) w with Some c => theta_sum ss k * (c / at_phinorm K eps (q_beta p) ss w) | None => 0 end) by (intros k; unfold sc, at_scatter; destruct (last_count (cts d) w); ring).
      set (cw := match last_count (cts d) w with Some c => c | None => 0 end) in *. assert (CW : 0 <= cw) by (unfold cw; destruct (last_count (cts d) w) as [c|] eqn:L; [apply (CC (w, c)); apply last_count_some; exact L | lra]).
      assert (SC' : forall k, sc k w = acc k w + theta_sum ss k * (cw / at_phinorm K eps (q_beta p) ss w)) by (intros k; rewrite SC; unfold cw; destruct (last_count (cts d) w); [reflexivity | unfold Rdiv; ring]).
      clear SC. clearbody sc cw.
      assert (SUM : sumn K (fun k => (sc k w - acc k w) * q_beta p k w) = cw * (sumn K (fun k => theta_sum ss k * q_beta p k w) / at_phinorm K eps (q_beta p) ss w)).
      { transitivity (sumn K (fun k => (cw / at_phinorm K eps (q_beta p) ss w) * (theta_sum ss k * q_beta p k w))); [apply sumn_ext; intros k _; rewrite SC'; ring|]. rewrite sumn_scal. unfold Rdiv. ring. }
      destruct (phin_ge K eps (q_beta p) ss w TH ltac:(intros; apply HB; assumption)) as (P1 & P2).
      destruct (word_share (sumn K (fun k => theta_sum ss k * q_beta p k w)) eps cw P1 HE CW) as (W1 & W2). rewrite <- P2 in W1, W2.
      assert (OCC : occurrences w ((authors, d) :: chunk) = match authors with [] => 0 | _ => cw end + occurrences w chunk).
      { unfold occurrences. cbn [filter fst]. destruct authors; [ring|]. cbn [map snd]. rewrite Rsum_cons, OC. reflexivity. }
      assert (NOA : authors = [] -> sumn K (fun k => theta_sum ss k * q_beta p k w) = 0).
      { intros ->. destruct ss; [|discriminate]. transitivity (sumn K (fun _ => 0)); [apply sumn_ext; intros; unfold theta_sum; cbn; ring | apply sumn_zero]. }
      assert (PPOS : authors <> [] -> 0 < sumn K (fun k => theta_sum ss k * q_beta p k w)).
      { intros NE. apply (phin_pos K eps); auto. intros ->. apply NE. rewrite <- DA. reflexivity. }
      assert (SPL : sumn K (fun k => (snd gs1 k w - acc k w) * q_beta p k w) = sumn K (fun k => (snd gs1 k w - sc k w) * q_beta p k w) + sumn K (fun k => (sc k w - acc k w) * q_beta p k w)) by (rewrite <- sumn_plus; apply sumn_ext; intros; ring).
      assert (PHI : forall k, 0 <= theta_sum ss k * (cw / at_phinorm K eps (q_beta p) ss w)).
      { intros k. destruct authors as [|a authors]; [destruct ss; [unfold theta_sum; cbn; lra | discriminate]|]. specialize (PPOS ltac:(discriminate)).
        apply Rmult_le_pos; [apply theta_sum_nonneg; exact TH|]. apply Rmult_le_pos; [exact CW | apply Rlt_le, Rinv_0_lt_compat; lra]. }
      split; [|rewrite SPL, SUM, OCC; destruct authors as [|a authors]].
      + intros k L. specialize (G1 k L). rewrite SC' in G1. specialize (PHI k). lra.
      + rewrite (NOA eq_refl). unfold Rdiv. rewrite Rmult_0_l, Rmult_0_r. split; [lra|]. intros Z0. rewrite (G3 Z0). ring.
      + split; [lra|]. intros Z0. rewrite (G3 Z0), (W2 (PPOS ltac:(discriminate)) Z0). ring. }
  destruct (GEN chunk gamma (fun _ _ => 0) gamma' gs0 HC EL) as (LE & GW). split; [exact LE|]. intros w. destruct (GW w) as (G1 & G2 & G3).
  assert (SAME : sumn K (fun k => snd gs0 k w * q_beta p k w) = sumn K (fun k => (snd gs0 k w - 0) * q_beta p k w)) by (apply sumn_ext; intros; ring).
  assert (NN : forall k, (k < K)%nat -> 0 <= snd gs0 k w * q_beta p k w) by (intros k L; apply Rmult_le_pos; [apply G1; exact L | apply Rlt_le; apply HB; exact L]).
  split; [exact NN|]. split; [split; [apply sumn_nonneg; exact NN | rewrite SAME; exact G2] | intros Z0; rewrite SAME; apply G3; exact Z0].
Qed.
Print Assumptions at_statistics.

(** With one author who has one document, and rho 1, this is the inference of LDA. *)
Theorem at_single_is_lda : forall K eps edir ndocs p gamma a d, ndocs a = 1%nat -> q_rho p = 1 ->
  map (fun s => (s_gamma s, s_theta s)) (at_doc K eps edir ndocs p gamma [a] d) = [infer_doc K eps edir (Params (q_alpha p) (q_beta p) (q_iterations p) (q_threshold p)) (cts d) (gamma a)].
Proof.
  intros K eps edir ndocs p gamma a d HN HR. unfold at_doc, infer_doc. cbn [map p_alpha p_beta p_iterations p_threshold]. generalize (gamma a) at 1 as old. generalize (gamma a) at 1 3 as g. generalize (edir K (gamma a)) as th. generalize (q_iterations p) as n.
  assert (NG : forall old g th, new_gamma K eps ndocs p (cts d) [Slot a old g th] (Slot a old g th) = gamma_step K eps (q_alpha p) (q_beta p) th (cts d)).
  { intros old g th. apply functional_extensionality. intros k. unfold new_gamma, gamma_step. cbn [s_old s_theta s_author]. rewrite HN, HR. cbn [INR].
    assert (PH : forall w, at_phinorm K eps (q_beta p) [Slot a old g th] w = phinorm K eps (q_beta p) th w) by (intros w; unfold at_phinorm, phinorm, theta_sum; f_equal; apply sumn_ext; intros j _; cbn; ring).
    rewrite (Rsum_ext _ (fun wc => snd wc / phinorm K eps (q_beta p) th (fst wc) * q_beta p k (fst wc))) by (intros; rewrite PH; reflexivity). ring. }
  intros n. induction n as [|n IH]; intros th g old; [reflexivity|]. cbn [at_iterate iterate]. unfold at_change, at_step. cbn [map length s_gamma]. rewrite NG. cbn [s_author s_old s_gamma].
  replace (Rsum [sumn K (fun k => Rabs (gamma_step K eps (q_alpha p) (q_beta p) th (cts d) k - g k))] / (INR 1 * INR K)) with (mean_change K g (gamma_step K eps (q_alpha p) (q_beta p) th (cts d))) by (unfold mean_change; cbn [Rsum fold_right INR]; rewrite Rplus_0_r, Rmult_1_l; reflexivity).
  destruct (Rlt_dec _ _); [reflexivity | apply IH].
Qed.
Print Assumptions at_single_is_lda.

(** The order in which the authors of a document are listed does not matter. *)
Theorem at_author_order : forall K eps edir ndocs p gamma d authors authors', Permutation authors authors' -> NoDup authors ->
  (forall a, write_rows (at_doc K eps edir ndocs p gamma authors d) gamma a = write_rows (at_doc K eps edir ndocs p gamma authors' d) gamma a) /\
  (forall acc k w, at_scatter K eps p (at_doc K eps edir ndocs p gamma authors d) d acc k w = at_scatter K eps p (at_doc K eps edir ndocs p gamma authors' d) d acc k w).
Proof.
  intros K eps edir ndocs p gamma d authors authors' P ND. assert (PP : Permutation (at_doc K eps edir ndocs p gamma authors d) (at_doc K eps edir ndocs p gamma authors' d)) by (apply iterate_perm; apply Permutation_map; exact P). split.
  - intros a. apply write_perm; [exact PP|]. destruct (doc_authors K eps edir ndocs p gamma authors d) as (A & _). rewrite A. exact ND.
  - intros acc k w. unfold at_scatter. assert (TS : theta_sum (at_doc K eps edir ndocs p gamma authors d) = theta_sum (at_doc K eps edir ndocs p gamma authors' d)) by (apply functional_extensionality; intros j; unfold theta_sum; apply Rsum_perm; apply Permutation_map; exact PP).
    unfold at_phinorm. rewrite TS. reflexivity.
Qed.
Print Assumptions at_author_order.

(** Whole counts are used as they are; counts below 1 are lost: such a document is the same as an empty one. *)
Theorem at_counts : forall d, (Forall (fun wc => exists z, snd wc = IZR z) d -> cts d = d) /\ (Forall (fun wc => 0 <= snd wc) d -> words d <= Rsum (map snd d)).
Proof.
  intros d. split; intros F.
  - induction F as [|(w, c) d (z & E) F IH]; [reflexivity|]. cbn. cbn in E. fold (cts d). rewrite IH, E, trunc_int. reflexivity.
  - unfold words. apply Rsum_le. rewrite Forall_forall in F. intros wc I. apply trunc_nonneg. apply F. exact I.
Qed.
Print Assumptions at_counts.
Theorem at_fractions_lost : forall K eps edir ndocs p gamma authors d, Forall (fun wc => 0 <= snd wc < 1) d ->
  at_doc K eps edir ndocs p gamma authors d = at_doc K eps edir ndocs p gamma authors [] /\
  forall acc k w, at_scatter K eps p (at_doc K eps edir ndocs p gamma authors d) d acc k w = acc k w.
Proof.
  intros K eps edir ndocs p gamma authors d F. assert (C0 : cts d = map (fun wc => (fst wc, 0)) d) by (unfold cts; apply map_ext_in; intros (w, c) I; rewrite Forall_forall in F; specialize (F _ I); cbn in *; rewrite trunc_frac by exact F; reflexivity). split.
  - unfold at_doc. rewrite C0. change (cts []) with (@nil (nat * R)). generalize (map (fun a => Slot a (gamma a) (gamma a) (edir K (gamma a))) authors) as ss. generalize (q_iterations p) as n.
    assert (NG : forall ss s, new_gamma K eps ndocs p (map (fun wc => (fst wc, 0)) d) ss s = new_gamma K eps ndocs p [] ss s).
    { intros ss s. apply functional_extensionality. intros k. unfold new_gamma. do 4 f_equal. rewrite map_map. cbn [fst snd map]. induction d as [|wc d IH]; [reflexivity|]. cbn [map]. rewrite Rsum_cons. inversion F; subst. rewrite IH; [unfold Rdiv; cbn; ring | assumption | cbn in C0; injection C0 as _ C0; exact C0]. }
    intros n. induction n as [|n IH]; intros ss; [reflexivity|]. cbn [at_iterate].
    assert (ST : at_step K eps edir ndocs p (map (fun wc => (fst wc, 0)) d) ss = at_step K eps edir ndocs p [] ss) by (unfold at_step; apply map_ext; intros s; rewrite NG; reflexivity).
    assert (CH : at_change K eps ndocs p (map (fun wc => (fst wc, 0)) d) ss = at_change K eps ndocs p [] ss) by (unfold at_change; f_equal; f_equal; apply map_ext; intros s; rewrite NG; reflexivity).
    rewrite CH, ST. destruct (Rlt_dec _ _); [reflexivity | apply IH].
  - intros acc k w. unfold at_scatter. destruct (last_count (cts d) w) as [c|] eqn:L; [|reflexivity]. apply last_count_some in L. rewrite C0 in L. apply in_map_iff in L. destruct L as (wc & E & _). injection E as _ <-. unfold Rdiv. ring.
Qed.
Print Assumptions at_fractions_lost.

(** ** Topics of an author *)
Theorem author_topics_spec : forall K gamma ids name minimum, (0 < K)%nat -> NoDup (map fst ids) -> (forall a k, (k < K)%nat -> 0 < gamma a k) ->
  (forall a, In (name, a) ids -> exists l q, author_topics K gamma ids name minimum = Ok l /\
     (forall k, (k < K)%nat -> 0 < q k /\ q k * sumn K (gamma a) = gamma a k) /\ sumn K q = 1 /\
     (forall k x, In (k, x) l <-> (k < K)%nat /\ x = q k /\ minimum <= x /\ 1 / 100000000 <= x) /\ StronglySorted lt (map fst l)) /\
  (~ In name (map fst ids) -> author_topics K gamma ids name minimum = Err KeyError).
Proof.
  intros K gamma ids name minimum HK ND HG. unfold author_topics. split.
  2:{ intros NI. rewrite (proj2 (dget_None ids name) NI). reflexivity. }
  intros a I. rewrite (In_dget ids name a ND I). cbn [of_option rbind]. set (g := gamma a). assert (Gp : forall k, (k < K)%nat -> 0 < g k) by (intros; apply HG; assumption). clearbody g. assert (Sp : 0 < sumn K g) by (apply sumn_pos; assumption).
  eexists. exists (fun k => g k / sumn K g). split; [reflexivity|]. split; [intros k Hk; split; [apply Rdiv_lt_0_compat; [apply Gp; exact Hk | exact Sp] | field; lra]|]. split; [|split].
  - transitivity (sumn K (fun k => / sumn K g * g k)); [apply sumn_ext; intros; unfold Rdiv; ring|]. rewrite sumn_scal. apply Rinv_l. lra.
  - intros k x. rewrite filter_In, in_map_iff. cbn [snd]. split.
    + intros [(k' & X & Hk) Hm]. injection X as -> <-. apply in_seq in Hk. destruct (Rle_dec _ _) as [L|]; [|discriminate Hm]. assert (M1 := Rmax_l minimum (1 / 100000000)). assert (M2 := Rmax_r minimum (1 / 100000000)). repeat split; [lia | lra | lra].
    + intros (Hk & -> & M1 & M2). split; [exists k; split; [reflexivity | apply in_seq; lia]|]. destruct (Rle_dec _ _) as [L|L]; [reflexivity|]. exfalso. apply L. apply Rmax_lub; assumption.
  - clear. generalize (sumn K g). intros sg. generalize (Rmax minimum (1 / 100000000)). intros mn. generalize 0%nat. intros i. revert i. induction K as [|n IH]; intros i; [constructor|]. cbn [seq map filter]. destruct (if Rle_dec _ _ then true else false); [|apply IH]. cbn [map]. constructor; [apply IH|].
    rewrite Forall_forall. intros y Hy. apply in_map_iff in Hy. destruct Hy as ([y' z] & <- & Hy). apply filter_In in Hy. destruct Hy as [Hy _]. apply in_map_iff in Hy. destruct Hy as (k & X & Hk). injection X as <- _. apply in_seq in Hk. cbn. lia.
Qed.
Print Assumptions author_topics_spec.

(** ** Examples: two topics, two authors with one and two documents, one iteration. *)
Definition p1 : at_params := AtParams (fun _ => 1) (fun k w => if (k =? w)%nat then 3 else 1) 1 0 (1 / 2).
Definition nd (a : nat) : nat := S a.
Definition one : nat -> (nat -> R) -> nat -> R := fun _ _ _ => 1.
Definition g2 : nat -> nat -> R := fun _ _ => 4.
Example at_doc_ex : exists a b, map s_gamma (at_doc 2 0 one nd p1 g2 [0%nat; 1%nat] [(0%nat, 2); (1%nat, 25 / 10)]) = [a; b] /\ a 0%nat = 2 + (1 + 1) / 2 /\ b 0%nat = 2 + (1 + 2 * 1) / 2.
Proof.
  unfold at_doc, p1. cbn [q_iterations at_iterate].
  assert (T2 : trunc 2 = 2) by (apply (trunc_int 2)). assert (T25 : trunc (25 / 10) = 2).
  { unfold trunc. destruct (Rle_dec 0 (25 / 10)); [|lra]. destruct (base_Int_part (25 / 10)) as (A & B). apply IZR_eq. assert ((1 < Int_part (25 / 10))%Z) by (apply lt_IZR; lra). assert ((Int_part (25 / 10) < 3)%Z) by (apply lt_IZR; lra). lia. }
  cbn [cts map fst snd]. rewrite T2, T25.
  eexists. eexists. destruct (Rlt_dec _ _); (split; [reflexivity|]; split); unfold new_gamma, at_phinorm, theta_sum, sumn, Rsum, nd, g2, one; cbn; lra.
Qed.
Example at_words_shared_ex : words [(0%nat, 2); (1%nat, 1 / 2)] = 2.
Proof. unfold words. cbn. rewrite (trunc_int 2), trunc_frac; lra. Qed.
Example at_rows_ex : let gamma' := fst (at_inference 2 2 1 one nd p1 g2 [([0%nat], [(0%nat, 2)]); ([1%nat], [(7%nat, 1)])]) in
  gamma' 0%nat 0%nat = 2 + (1 + 2 / 5 * 3) / 2 /\ gamma' 1%nat 0%nat = 4 /\ snd (at_inference 2 2 1 one nd p1 g2 [([0%nat], [(0%nat, 2)]); ([1%nat], [(7%nat, 1)])]) = Err IndexError.
Proof.
  cbv zeta. unfold at_inference. cbn [at_loop in_vocab forallb fst Nat.ltb Nat.leb andb]. cbn [fst snd rbind]. split; [|split; [|reflexivity]].
  - unfold at_doc, p1. cbn [q_iterations at_iterate cts map fst snd]. rewrite (trunc_int 2). destruct (Rlt_dec _ _); unfold write_rows, at_step; cbn [fold_left map s_author s_gamma Nat.eqb]; unfold new_gamma, at_phinorm, theta_sum, sumn, Rsum, nd, g2, one; cbn; lra.
  - rewrite write_other; [reflexivity|]. destruct (doc_authors 2 1 one nd p1 g2 [0%nat] [(0%nat, 2)]) as (A & _). rewrite A. intros [X|[]]. discriminate.
Qed.
Example author_topics_ex : exists l, author_topics 2 (fun _ k => if (k =? 0)%nat then 3 else 1) [([97%N; 98%N], 0%nat)] [97%N; 98%N] (3 / 10) = Ok l /\ l = [(0%nat, 3 / 4)].
Proof.
  unfold author_topics. replace (dget [([97%N; 98%N], 0%nat)] [97%N; 98%N]) with (Some 0%nat) by reflexivity. cbn [of_option rbind]. eexists. split; [reflexivity|]. cbn [map seq filter snd Nat.eqb]. unfold sumn, Rsum. cbn [map seq fold_right Nat.eqb].
  assert (M : Rmax (3 / 10) (1 / 100000000) = 3 / 10) by (apply Rmax_left; lra). rewrite M. destruct (Rle_dec (3 / 10) (3 / (3 + (1 + 0)))) as [|N]; [|lra]. destruct (Rle_dec (3 / 10) (1 / (3 + (1 + 0)))); [lra|]. do 2 f_equal. lra.
Qed.
(** A document of weights below 1, as from tf-idf, leaves its author at the prior. *)
Theorem at_weights_refuted : exists d, Rsum (map snd d) = 27 / 10 /\ words d = 0 /\ forall K eps edir ndocs p gamma authors, at_doc K eps edir ndocs p gamma authors d = at_doc K eps edir ndocs p gamma authors [].
Proof.
  exists [(0%nat, 9 / 10); (1%nat, 9 / 10); (2%nat, 9 / 10)]. split; [cbn; lra|]. split; [unfold words; cbn; rewrite trunc_frac; lra|]. intros. apply at_fractions_lost. repeat constructor; cbn; lra.
Qed.
Print Assumptions at_weights_refuted.
