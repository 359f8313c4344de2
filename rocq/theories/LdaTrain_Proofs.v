(** Proofs about training an LDA model: which documents go into which M step. *)
From Coq Require Import Reals Lra.
From Verif Require Import Base MatReal_Model MatReal_Proofs Utils_Model Utils_Properties LdaTrain_Model.
From Coq Require Import ZifyBool ZifyNat.
Local Open Scope nat_scope.

(** Batches of [n] elements: a partition in order, all of [n] elements but perhaps the last. *)
Definition batches {A} (n : nat) (l : list A) (bs : list (list A)) : Prop :=
  concat bs = l /\ Forall (fun b => b <> [] /\ length b <= n) bs /\ forall b1 b b2, bs = b1 ++ b :: b2 -> b2 <> [] -> length b = n.

Section Lda.
Variables K V : nat.
Variable eps : R.
Variable edir : nat -> (nat -> R) -> nat -> R.
Variable draw : nat -> nat -> R.
Variable newton_alpha : (nat -> R) -> list (nat -> R) -> nat -> R.
Variable newton_eta : (nat -> nat -> R) -> (nat -> nat -> R) -> nat -> nat -> R.
Notation infer_loop := (infer_loop K V eps edir draw).
Notation inference := (inference K V eps edir draw).
Notation do_estep := (do_estep K V eps edir draw).
Notation do_mstep := (do_mstep V edir newton_eta).
Notation chunk_step := (chunk_step K V eps edir draw newton_alpha newton_eta).
Notation pass_step := (pass_step K V eps edir draw newton_alpha newton_eta).
Notation update := (update K V eps edir draw newton_alpha newton_eta).
Notation update_alpha := (update_alpha K newton_alpha).

Lemma infer_loop_ok : forall p chunk r acc, forallb (in_vocab V) chunk = true -> exists gs, infer_loop p r chunk acc = Ok gs /\ length (fst gs) = length chunk.
Proof.
  intros p. induction chunk as [|d chunk IH]; intros r acc H; cbn [LdaTrain_Model.infer_loop]; [eexists; split; reflexivity|]. cbn [forallb] in H. apply andb_true_iff in H. destruct H as [H1 H2]. rewrite H1.
  destruct (IH (S r) (scatter K eps (p_beta p) (snd (infer_doc K eps edir p d (draw r))) d acc) H2) as (gs & E & L). rewrite E. cbn [rbind]. eexists. split; [reflexivity|]. cbn [fst length]. now rewrite L.
Qed.
Lemma inference_ok : forall p chunk r, forallb (in_vocab V) chunk = true -> exists gs, inference p r chunk = Ok gs /\ length (fst gs) = length chunk.
Proof. intros p chunk r H. unfold LdaTrain_Model.inference. destruct (infer_loop_ok p chunk r (fun _ _ => 0%R) H) as (gs & E & L). rewrite E. cbn [rbind]. eexists. split; [reflexivity | exact L]. Qed.

(** What the steps do to the bookkeeping. *)
Definition same_books (m m' : lda) : Prop := m_updates m' = m_updates m /\ m_steps m' = m_steps m /\ numdocs (m_state m') = numdocs (m_state m).
Lemma chunk_step_ok : forall a len pass s i chunk, forallb (in_vocab V) chunk = true -> numdocs (g_other s) = length (seen (g_other s)) ->
  exists s', chunk_step a len pass s (i, chunk) = Ok s' /\ g_reallen s' = g_reallen s + length chunk /\ numdocs (m_state (g_model s')) = numdocs (m_state (g_model s)) /\
    if (negb (a_update_every a =? 0) && ((i + 1) mod a_update_every a =? 0))
    then m_steps (g_model s') = m_steps (g_model s) ++ [(pass, rho a (g_model s) pass, seen (g_other s) ++ chunk)] /\ g_dirty s' = false /\ g_other s' = fresh /\
         m_updates (g_model s') = (if 0 <? pass then m_updates (g_model s) else m_updates (g_model s) + length (seen (g_other s) ++ chunk))
    else m_steps (g_model s') = m_steps (g_model s) /\ g_dirty s' = true /\ seen (g_other s') = seen (g_other s) ++ chunk /\ numdocs (g_other s') = length (seen (g_other s')) /\
         m_updates (g_model s') = m_updates (g_model s).
Proof.
  intros a len pass s i chunk Hv Hn. unfold LdaTrain_Model.chunk_step.
  assert (E : exists m, evaluate V a len (g_reallen s + length chunk) i (g_model s) chunk = Ok m /\ same_books (g_model s) m).
  { unfold evaluate. rewrite Hv. destruct (_ && _); eexists; (split; [reflexivity|]); repeat split. }
  destruct E as (m & -> & B1 & B2 & B3). cbn [rbind]. unfold LdaTrain_Model.do_estep. destruct (inference_ok (model_params m) chunk (m_draws m) Hv) as (gs & E & L). rewrite E. cbn [rbind]. rewrite L.
  set (m2 := if m_auto_alpha (set_draws m (m_draws m + length chunk)) then _ else _).
  assert (B : same_books (g_model s) m2). { unfold m2. destruct (m_auto_alpha _); (split; [exact B1|]; split; [exact B2 | exact B3]). }
  clearbody m2. destruct B as (C1 & C2 & C3). assert (Rho : rho a m2 pass = rho a (g_model s) pass) by (unfold rho; now rewrite C1). rewrite Rho.
  destruct (negb (a_update_every a =? 0) && ((i + 1) mod a_update_every a =? 0)); eexists; (split; [reflexivity|]); cbn [g_reallen g_model g_dirty g_other].
  - split; [reflexivity|]. split; [cbn; exact C3|]. split; [cbn; now rewrite C2|]. split; [reflexivity|]. split; [reflexivity|]. cbn. rewrite C1, Hn, app_length. reflexivity.
  - split; [reflexivity|]. split; [exact C3|]. split; [exact C2|]. split; [reflexivity|]. split; [reflexivity|]. split; [cbn; rewrite app_length; lia | exact C1].
Qed.

(** The M steps of a pass. *)
Fixpoint paced (a : settings) (pass u : nat) (bs : list (nat * R * list doc)) : Prop :=
  match bs with
  | [] => True
  | (p, r, b) :: bs' => p = pass /\ r = Rpower (a_offset a + INR pass + INR u / INR (a_chunksize a)) (- a_decay a) /\ paced a pass (if 0 <? pass then u else u + length b) bs'
  end.
Definition after_pass (pass u : nat) (bs : list (nat * R * list doc)) : nat := if 0 <? pass then u else u + length (concat (map snd bs)).
Lemma paced_app : forall a pass bs u b, paced a pass u bs -> paced a pass (after_pass pass u bs) [b] -> paced a pass u (bs ++ [b]).
Proof.
  intros a pass bs. unfold after_pass. induction bs as [|[[p r] x] bs IH]; intros u b H1 H2; cbn [app] in *.
  - destruct (0 <? pass); [exact H2 | cbn [map concat length] in H2; rewrite Nat.add_0_r in H2; exact H2].
  - cbn [paced map concat snd] in *. destruct H1 as (A & B & C). split; [exact A|]. split; [exact B|]. apply IH; [exact C|]. destruct (0 <? pass); [exact H2|]. rewrite app_length in H2. replace (u + length x + length (concat (map snd bs))) with (u + (length x + length (concat (map snd bs)))) by lia. exact H2.
Qed.

Definition batch_size (a : settings) (len : nat) : nat := if a_update_every a =? 0 then len else a_chunksize a * a_update_every a.
Section Pass.
Variable a : settings.
Variable len pass : nat.
Notation n := (a_chunksize a).
Notation u := (a_update_every a).
Record Mid (i : nat) (base : list (nat * R * list doc)) (u0 nd : nat) (done : list doc) (s : progress) : Prop := {
  M_len : g_reallen s = length done;
  M_docs : numdocs (m_state (g_model s)) = nd;
  M_other : numdocs (g_other s) = length (seen (g_other s));
  M_steps : exists bs, m_steps (g_model s) = base ++ bs /\ concat (map snd bs) ++ seen (g_other s) = done /\ paced a pass u0 bs /\
    m_updates (g_model s) = after_pass pass u0 bs /\ Forall (fun b => length (snd b) = n * u /\ snd b <> []) bs /\ (u = 0 -> bs = []);
  M_dirty : g_dirty s = negb (length (seen (g_other s)) =? 0);
  M_pend : length (seen (g_other s)) = if u =? 0 then n * i else n * (i mod u)
}.
Lemma mid_step : forall i base u0 nd done s chunk, 0 < n -> length chunk = n -> forallb (in_vocab V) chunk = true -> Mid i base u0 nd done s ->
  exists s', chunk_step a len pass s (i, chunk) = Ok s' /\ Mid (i + 1) base u0 nd (done ++ chunk) s'.
Proof.
  intros i base u0 nd done s chunk Hn0 Hc Hv [M1 M2 M3 (bs & E1 & E2 & E3 & E4 & E5 & E6) M5 M6]. destruct (chunk_step_ok a len pass s i chunk Hv M3) as (s' & Es & F1 & F2 & F3). exists s'. split; [exact Es|].
  destruct (negb (u =? 0) && ((i + 1) mod u =? 0)) eqn:T.
  - destruct F3 as (G1 & G2 & G3 & G4). assert (Hu : u <> 0) by lia. assert (Em : (i + 1) mod u = 0) by lia.
    assert (Full : length (seen (g_other s) ++ chunk) = n * u).
    { rewrite app_length, M6, Hc. replace (u =? 0) with false by lia. assert (D := Nat.div_mod (i + 1) u Hu). rewrite Em in D. assert (X : S (i mod u) = u).
      { assert (P : i mod u < u) by (apply Nat.mod_upper_bound; exact Hu). destruct (Nat.eq_dec (S (i mod u)) u) as [Q|Q]; [exact Q|]. exfalso. assert (Y : (i + 1) mod u = S (i mod u)). { rewrite (Nat.div_mod i u Hu) at 1. replace (u * (i / u) + i mod u + 1) with (S (i mod u) + (i / u) * u) by lia. rewrite Nat.mod_add by exact Hu. apply Nat.mod_small. lia. } lia. }
      rewrite <- X at 2. lia. }
    constructor.
    + rewrite F1, M1, app_length. reflexivity.
    + rewrite F2. exact M2.
    + rewrite G3. reflexivity.
    + exists (bs ++ [(pass, rho a (g_model s) pass, seen (g_other s) ++ chunk)]). split; [rewrite G1, E1, app_assoc; reflexivity|]. split; [|split; [|split; [|split]]].
      * rewrite map_app, concat_app, G3. cbn [map concat snd fresh seen]. rewrite !app_nil_r, app_assoc, E2. reflexivity.
      * apply paced_app; [exact E3|]. cbn [paced]. split; [reflexivity|]. split; [unfold rho; rewrite E4; reflexivity | exact I].
      * rewrite G4, E4. unfold after_pass. destruct (0 <? pass); [reflexivity|]. rewrite map_app, concat_app, !app_length. cbn [map concat snd]. rewrite app_nil_r, !app_length. lia.
      * apply Forall_app. split; [exact E5|]. constructor; [|constructor]. cbn [snd]. split; [exact Full|]. intros X. apply app_eq_nil in X. destruct X as [_ X]. rewrite X in Hc. cbn in Hc. lia.
      * intros X. congruence.
    + rewrite G2, G3. reflexivity.
    + rewrite G3. replace (u =? 0) with false by lia. rewrite Em. cbn. lia.
  - destruct F3 as (G1 & G2 & G3 & G4 & G5). constructor.
    + rewrite F1, M1, app_length. reflexivity.
    + rewrite F2. exact M2.
    + exact G4.
    + exists bs. rewrite G1, G3, G5. split; [exact E1|]. split; [rewrite app_assoc, E2; reflexivity|]. split; [exact E3|]. split; [exact E4|]. split; [exact E5 | exact E6].
    + rewrite G2, G3, app_length. replace (length (seen (g_other s)) + length chunk =? 0) with false by lia. reflexivity.
    + rewrite G3, app_length, M6, Hc. destruct (Nat.eqb_spec u 0) as [U|U]; [lia|]. cbn [negb andb] in T. assert (P : i mod u < u) by (apply Nat.mod_upper_bound; exact U).
      assert (Y : (i + 1) mod u = i mod u + 1); [|rewrite Y; lia]. rewrite (Nat.div_mod i u U) at 1. replace (u * (i / u) + i mod u + 1) with ((i mod u + 1) + (i / u) * u) by lia. rewrite Nat.mod_add by exact U.
      destruct (Nat.eq_dec (i mod u + 1) u) as [Q|Q]; [|apply Nat.mod_small; lia]. exfalso. assert ((i + 1) mod u = 0); [|lia]. rewrite (Nat.div_mod i u U). replace (u * (i / u) + i mod u + 1) with (0 + (i / u + 1) * u) by lia. rewrite Nat.mod_add by exact U. apply Nat.mod_small. lia.
Qed.
(** After the last chunk, which may be shorter. *)
Record End (base : list (nat * R * list doc)) (u0 nd : nat) (done : list doc) (s : progress) : Prop := {
  N_len : g_reallen s = length done;
  N_docs : numdocs (m_state (g_model s)) = nd;
  N_other : numdocs (g_other s) = length (seen (g_other s));
  N_steps : exists bs, m_steps (g_model s) = base ++ bs /\ concat (map snd bs) ++ seen (g_other s) = done /\ paced a pass u0 bs /\ m_updates (g_model s) = after_pass pass u0 bs /\
    (u = 0 -> bs = []) /\ (u <> 0 -> length (seen (g_other s)) <= n * u) /\
    ((Forall (fun b => length (snd b) = n * u /\ snd b <> []) bs) \/
     (seen (g_other s) = [] /\ exists bs1 b, bs = bs1 ++ [b] /\ Forall (fun b => length (snd b) = n * u /\ snd b <> []) bs1 /\ snd b <> [] /\ length (snd b) <= n * u));
  N_dirty : g_dirty s = negb (length (seen (g_other s)) =? 0)
}.
Lemma mid_end : forall i base u0 nd done s, Mid i base u0 nd done s -> End base u0 nd done s.
Proof.
  intros i base u0 nd done s [M1 M2 M3 (bs & E1 & E2 & E3 & E4 & E5 & E6) M5 M6]. constructor; [exact M1 | exact M2 | exact M3 | | exact M5]. exists bs. split; [exact E1|]. split; [exact E2|]. split; [exact E3|]. split; [exact E4|]. split; [exact E6|]. split; [|left; exact E5].
  intros U. rewrite M6. destruct (Nat.eqb_spec u 0) as [W|W]; [contradiction|]. apply Nat.mul_le_mono_l. assert (P := Nat.mod_upper_bound i u U). lia.
Qed.
Lemma mid_last : forall i base u0 nd done s chunk, chunk <> [] -> length chunk <= n -> forallb (in_vocab V) chunk = true -> Mid i base u0 nd done s ->
  exists s', chunk_step a len pass s (i, chunk) = Ok s' /\ End base u0 nd (done ++ chunk) s'.
Proof.
  intros i base u0 nd done s chunk Hc0 Hc Hv [M1 M2 M3 (bs & E1 & E2 & E3 & E4 & E5 & E6) M5 M6]. destruct (chunk_step_ok a len pass s i chunk Hv M3) as (s' & Es & F1 & F2 & F3). exists s'. split; [exact Es|].
  assert (Hne : seen (g_other s) ++ chunk <> []) by (intros X; apply app_eq_nil in X; tauto).
  assert (Hle : u <> 0 -> length (seen (g_other s) ++ chunk) <= n * u).
  { intros U. rewrite app_length, M6. destruct (Nat.eqb_spec u 0) as [W|W]; [contradiction|]. assert (P := Nat.mod_upper_bound i u U). assert (n * (i mod u) + n <= n * u); [|lia]. replace (n * (i mod u) + n) with (n * (i mod u + 1)) by lia. apply Nat.mul_le_mono_l. lia. }
  destruct (negb (u =? 0) && ((i + 1) mod u =? 0)) eqn:T.
  - destruct F3 as (G1 & G2 & G3 & G4). assert (Hu : u <> 0) by lia. constructor.
    + rewrite F1, M1, app_length. reflexivity.
    + rewrite F2. exact M2.
    + rewrite G3. reflexivity.
    + exists (bs ++ [(pass, rho a (g_model s) pass, seen (g_other s) ++ chunk)]). split; [rewrite G1, E1, app_assoc; reflexivity|]. split; [|split; [|split; [|split; [|split]]]].
      * rewrite map_app, concat_app, G3. cbn [map concat snd fresh seen]. rewrite !app_nil_r, app_assoc, E2. reflexivity.
      * apply paced_app; [exact E3|]. cbn [paced]. split; [reflexivity|]. split; [unfold rho; rewrite E4; reflexivity | exact I].
      * rewrite G4, E4. unfold after_pass. destruct (0 <? pass); [reflexivity|]. rewrite map_app, concat_app, !app_length. cbn [map concat snd]. rewrite app_nil_r, !app_length. lia.
      * intros X. congruence.
      * intros _. rewrite G3. cbn. lia.
      * right. split; [rewrite G3; reflexivity|]. eexists; eexists. split; [reflexivity|]. split; [exact E5|]. cbn [snd]. split; [exact Hne | exact (Hle Hu)].
    + rewrite G2, G3. reflexivity.
  - destruct F3 as (G1 & G2 & G3 & G4 & G5). constructor.
    + rewrite F1, M1, app_length. reflexivity.
    + rewrite F2. exact M2.
    + exact G4.
    + exists bs. rewrite G1, G3, G5. split; [exact E1|]. split; [rewrite app_assoc, E2; reflexivity|]. split; [exact E3|]. split; [exact E4|]. split; [exact E6|]. split; [exact Hle | left; exact E5].
    + rewrite G2, G3. destruct (seen (g_other s) ++ chunk); [contradiction | reflexivity].
Qed.
Lemma chunks_end : forall cs i base u0 nd done s, 0 < n -> Forall (fun c => c <> [] /\ length c <= n) cs -> (forall cs1 c cs2, cs = cs1 ++ c :: cs2 -> cs2 <> [] -> length c = n) ->
  forallb (in_vocab V) (concat cs) = true -> Mid i base u0 nd done s -> exists s', rfold (chunk_step a len pass) (combine (seq i (length cs)) cs) s = Ok s' /\ End base u0 nd (done ++ concat cs) s'.
Proof.
  induction cs as [|c cs IH]; intros i base u0 nd done s Hn F L Hv M.
  - cbn [length seq combine rfold concat]. rewrite app_nil_r. exists s. split; [reflexivity | exact (mid_end _ _ _ _ _ _ M)].
  - cbn [length seq combine rfold concat]. inversion F as [|? ? [F1 F2] F3]; subst. cbn [concat] in Hv. rewrite forallb_app in Hv. apply andb_true_iff in Hv. destruct Hv as [V1 V2]. destruct cs as [|c' cs].
    + destruct (mid_last i base u0 nd done s c F1 F2 V1 M) as (s' & E & N'). rewrite E. cbn [rbind length seq combine rfold concat]. rewrite app_nil_r. exists s'. split; [reflexivity | exact N'].
    + assert (Lc : length c = n) by (apply (L [] c (c' :: cs)); [reflexivity | discriminate]). destruct (mid_step i base u0 nd done s c Hn Lc V1 M) as (s' & E & M'). rewrite E. cbn [rbind]. rewrite app_assoc. replace (S i) with (i + 1) by lia. apply IH; [exact Hn | exact F3 | | exact V2 | exact M'].
      intros cs1 x cs2 Ex Nx. apply (L (c :: cs1) x cs2); [rewrite Ex; reflexivity | exact Nx].
Qed.
End Pass.

Lemma batches_full : forall A (m : nat) (bs : list (list A)) rest, Forall (fun b => length b = m /\ b <> []) bs -> rest <> [] -> length rest <= m -> batches m (concat bs ++ rest) (bs ++ [rest]).
Proof.
  intros A m bs rest F Hr Hl. split; [rewrite concat_app; cbn; rewrite app_nil_r; reflexivity|]. split.
  - apply Forall_app. split; [|constructor; [split; assumption | constructor]]. eapply Forall_impl; [|exact F]. intros b [B1 B2]. split; [exact B2 | lia].
  - intros b1 b b2 E Nb. destruct (exists_last Nb) as (b2' & y & ->). rewrite app_comm_cons, app_assoc in E. apply app_inj_tail in E. destruct E as [E _]. rewrite E in F. apply Forall_app in F. destruct F as [_ F]. inversion F as [|? ? [F1 _] _]. exact F1.
Qed.
Lemma batches_exact : forall A (m : nat) (bs : list (list A)), Forall (fun b => length b = m /\ b <> []) bs -> batches m (concat bs) bs.
Proof.
  intros A m bs F. split; [reflexivity|]. split.
  - eapply Forall_impl; [|exact F]. intros b [B1 B2]. split; [exact B2 | lia].
  - intros b1 b b2 E _. rewrite E in F. apply Forall_app in F. destruct F as [_ F]. inversion F as [|? ? [F1 _] _]. exact F1.
Qed.
Lemma Forall_snd : forall (P : list doc -> Prop) (bs : list (nat * R * list doc)), Forall (fun b => P (snd b)) bs -> Forall P (map snd bs).
Proof. intros P bs F. induction F; cbn; constructor; assumption. Qed.

Lemma pass_ok : forall a corpus m pass, 0 < a_chunksize a -> corpus <> [] -> forallb (in_vocab V) corpus = true ->
  exists m' bs, pass_step a corpus (length corpus) m pass = Ok m' /\ m_steps m' = m_steps m ++ bs /\ batches (batch_size a (length corpus)) corpus (map snd bs) /\
    paced a pass (m_updates m) bs /\ m_updates m' = (if 0 <? pass then m_updates m else m_updates m + length corpus) /\ numdocs (m_state m') = numdocs (m_state m).
Proof.
  intros a corpus m pass Hn Hne Hv. unfold LdaTrain_Model.pass_step. destruct (chunkize_serial_exact corpus (a_chunksize a) Hn) as (C1 & C2 & C3). set (cs := chunkize_serial corpus (a_chunksize a)) in *. clearbody cs.
  assert (M0 : Mid a pass 0 (m_steps m) (m_updates m) (numdocs (m_state m)) [] (Progress m fresh false 0)).
  { constructor; try reflexivity.
    - exists []. cbn [g_model map concat app g_other fresh seen]. rewrite app_nil_r. split; [reflexivity|]. split; [reflexivity|]. split; [exact I|]. split; [unfold after_pass; cbn [map concat length]; destruct (0 <? pass); lia|]. split; [constructor | reflexivity].
    - cbn [g_other fresh seen length]. destruct (Nat.eqb_spec (a_update_every a) 0) as [U|U]; [lia|]. rewrite Nat.mod_0_l by exact U. lia. }
  rewrite <- C1 in Hv. destruct (chunks_end a (length corpus) pass cs 0 _ _ _ _ _ Hn C2 C3 Hv M0) as (s & E & [N1 N2 N3 (bs & S1 & S2 & S3 & S4 & S5 & S6 & S7) N5]). rewrite E. cbn [rbind]. cbn [app] in *. rewrite C1 in *. rewrite N1, Nat.eqb_refl. cbn [negb].
  destruct (g_dirty s) eqn:D.
  - assert (Hp : seen (g_other s) <> []). { intros X. rewrite X in N5. discriminate N5. }
    destruct S7 as [S7 | [X _]]; [|contradiction]. eexists; exists (bs ++ [(pass, rho a (g_model s) pass, seen (g_other s))]). split; [reflexivity|]. cbn [LdaTrain_Model.do_mstep m_steps m_updates m_state blend numdocs]. split; [rewrite S1, app_assoc; reflexivity|]. split; [|split; [|split]].
    + rewrite map_app. cbn [map snd]. unfold batch_size. destruct (Nat.eqb_spec (a_update_every a) 0) as [U|U].
      * rewrite (S5 U) in *. cbn [map concat app] in *. rewrite S2. split; [cbn; apply app_nil_r|]. split; [constructor; [split; [exact Hne | lia] | constructor]|]. intros b1 b b2 X Y. exfalso. destruct b1 as [|? [|? ?]]; inversion X; subst; now apply Y.
      * rewrite <- S2. apply batches_full; [|exact Hp | exact (S6 U)]. apply (Forall_snd (fun b => length b = _ /\ b <> [])). exact S7.
    + apply paced_app; [exact S3|]. cbn [paced]. split; [reflexivity|]. split; [unfold rho; rewrite S4; reflexivity | exact I].
    + rewrite S4, N3. unfold after_pass. destruct (0 <? pass); [reflexivity|]. rewrite <- S2, app_length. lia.
    + exact N2.
  - assert (Hp : seen (g_other s) = []). { destruct (seen (g_other s)); [reflexivity | discriminate N5]. } rewrite Hp, app_nil_r in S2.
    exists (g_model s), bs. split; [reflexivity|]. split; [exact S1|]. split; [|split; [exact S3|]; split; [|exact N2]].
    + unfold batch_size. destruct (Nat.eqb_spec (a_update_every a) 0) as [U|U]; [exfalso; rewrite (S5 U) in S2; cbn in S2; congruence|].
      destruct S7 as [S7 | (_ & bs1 & b & -> & F1 & F2 & F3)].
      * rewrite <- S2. apply batches_exact. apply (Forall_snd (fun b => length b = _ /\ b <> [])). exact S7.
      * rewrite <- S2, map_app, concat_app. cbn [map concat]. rewrite app_nil_r. apply batches_full; [|exact F2 | exact F3]. apply (Forall_snd (fun b => length b = _ /\ b <> [])). exact F1.
    + rewrite S4. unfold after_pass. now rewrite S2.
Qed.

(** All passes. *)
Lemma passes_ok : forall a corpus, 0 < a_chunksize a -> corpus <> [] -> forallb (in_vocab V) corpus = true -> forall k p m, exists m' bss,
  rfold (pass_step a corpus (length corpus)) (seq p k) m = Ok m' /\ m_steps m' = m_steps m ++ concat bss /\ length bss = k /\
  (forall i bs, nth_error bss i = Some bs -> batches (batch_size a (length corpus)) corpus (map snd bs) /\ paced a (p + i) (m_updates m + (if (p =? 0) && (0 <? i) then length corpus else 0)) bs) /\
  m_updates m' = m_updates m + (if (p =? 0) && (0 <? k) then length corpus else 0) /\ numdocs (m_state m') = numdocs (m_state m).
Proof.
  intros a corpus Hn Hne Hv. induction k as [|k IH]; intros p m.
  - exists m, []. cbn [seq rfold concat length]. rewrite app_nil_r. split; [reflexivity|]. split; [reflexivity|]. split; [reflexivity|]. split; [intros i bs X; destruct i; discriminate X|]. split; [rewrite andb_false_r; lia | reflexivity].
  - cbn [seq rfold]. destruct (pass_ok a corpus m p Hn Hne Hv) as (m1 & bs & E & S1 & S2 & S3 & S4 & S5). rewrite E. cbn [rbind]. destruct (IH (S p) m1) as (m' & bss & E' & T1 & T2 & T3 & T4 & T5). rewrite E'.
    exists m', (bs :: bss). split; [reflexivity|]. split; [rewrite T1, S1, <- app_assoc; reflexivity|]. split; [cbn; now rewrite T2|]. split; [|split; [|congruence]].
    + intros [|i] b X; cbn [nth_error] in X.
      * injection X as <-. split; [exact S2|]. rewrite Nat.add_0_r. replace ((p =? 0) && (0 <? 0)) with false by lia. rewrite Nat.add_0_r. exact S3.
      * destruct (T3 i b X) as [U1 U2]. split; [exact U1|]. cbn [Nat.eqb andb] in U2. rewrite Nat.add_0_r, S4 in U2. replace (p + S i) with (S p + i) by lia. destruct (Nat.eqb_spec p 0) as [P|P].
        -- replace (0 <? p) with false in U2 by lia. cbn. exact U2.
        -- replace (0 <? p) with true in U2 by lia. cbn [andb]. rewrite Nat.add_0_r. exact U2.
    + rewrite T4, S4. cbn [Nat.eqb andb]. destruct (Nat.eqb_spec p 0) as [P|P]; [replace (0 <? p) with false by lia | replace (0 <? p) with true by lia]; cbn; lia.
Qed.
End Lda.
