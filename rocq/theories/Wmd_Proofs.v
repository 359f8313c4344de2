From Coq Require Import Reals Lra Psatz.
From Verif Require Import Base Str MatReal_Model MatReal_Proofs LdaTrain_Model Lsi_Spec Lsi_Linear KvSim_Model KvSim_Spec KvSim_Proofs KvSim_Properties
  Dictionary_Model Dictionary_Spec Dictionary_Proofs Dictionary_Properties Wmd_Spec Wmd_Transport Wmd_Model.
Local Open Scope R_scope.

(** ** Distances of unit vectors *)
Section Dim.
Variable d : nat.
Lemma norm_of_eq : forall v, norm_of d v = vnorm d v.
Proof. reflexivity. Qed.
Lemma euclid_chord : forall x y, euclid d (normed d x) (normed d y) = chord d x y.
Proof. intros x y. unfold euclid, chord, norm_of. f_equal. change (sumn d) with (Sum (seq 0 d)). apply Sum_ext. intros i _. unfold normed. fold (norm_of d x) (norm_of d y). change (vnorm d) with (norm_of d). ring. Qed.
Lemma chord_nonneg : forall x y, 0 <= chord d x y.
Proof. intros. apply sqrt_pos. Qed.
Lemma chord_sym : forall x y, chord d x y = chord d y x.
Proof. intros x y. unfold chord. set (u := norm_of d x). set (v := norm_of d y). unfold norm_of. f_equal. apply Sum_ext. intros; ring. Qed.
Lemma chord_refl : forall x, chord d x x = 0.
Proof. intros x. unfold chord. set (u := norm_of d x). unfold norm_of. rewrite Sum_zero; [apply sqrt_0|]. intros; ring. Qed.
Lemma chord_triangle : forall x y z, chord d x z <= chord d x y + chord d y z.
Proof.
  intros x y z. unfold chord. set (u := norm_of d x). set (v := norm_of d y). set (w := norm_of d z). unfold norm_of.
  pose proof (minkowski (fun i => x i / u - y i / v) (fun i => y i / v - z i / w) (seq 0 d)) as M. cbv beta in M. change Rsum with (fold_right Rplus 0) in M.
  unfold Sum. rewrite (map_ext (fun i => (x i / u - z i / w) * (x i / u - z i / w)) (fun i => (x i / u - y i / v + (y i / v - z i / w)) ^ 2)) by (intros; ring).
  rewrite (map_ext (fun i => (x i / u - y i / v) * (x i / u - y i / v)) (fun i => (x i / u - y i / v) ^ 2)) by (intros; ring).
  rewrite (map_ext (fun i => (y i / v - z i / w) * (y i / v - z i / w)) (fun i => (y i / v - z i / w) ^ 2)) by (intros; ring).
  exact M.
Qed.
Lemma chord_sq : forall x y, ~ zero_vec d x -> ~ zero_vec d y -> chord d x y * chord d x y = 2 * (1 - cosine d x y).
Proof. intros x y X Y. rewrite <- cosine_chord by assumption. apply sqrt_sqrt. apply (dotv_self d). Qed.
Lemma chord_2 : forall x y, ~ zero_vec d x -> ~ zero_vec d y -> chord d x y <= 2.
Proof. intros x y X Y. pose proof (chord_sq x y X Y). pose proof (cosine_bound d x y). pose proof (chord_nonneg x y). nra. Qed.
Lemma chord_0 : forall x y, ~ zero_vec d x -> ~ zero_vec d y -> (chord d x y = 0 <-> same_direction d x y).
Proof.
  intros x y X Y. rewrite <- cosine_one by assumption. pose proof (chord_sq x y X Y) as C. split; intros E; [rewrite E in C; lra|].
  rewrite E in C. replace (2 * (1 - 1)) with 0 in C by ring. apply Rmult_integral in C. tauto.
Qed.
End Dim.

(** ** Shares *)
Lemma count_sum : forall (W doc : list pystr), NoDup W -> incl doc W -> Sum W (fun w => INR (count_occ eq_dec doc w)) = INR (length doc).
Proof.
  intros W doc ND. induction doc as [|x doc IH]; intros IN; [apply Sum_zero; reflexivity|].
  rewrite (Sum_ext W _ (fun w => (if eq_dec x w then 1 else 0) + INR (count_occ eq_dec doc w))).
  - rewrite Sum_plus, Sum_single, IH; [cbn [length]; rewrite S_INR; ring | intros y I; apply IN; right; exact I | exact ND | apply IN; left; reflexivity].
  - intros w _. cbn [count_occ]. destruct (eq_dec x w); [rewrite S_INR|]; ring.
Qed.
Lemma len_pos : forall (doc : list pystr), doc <> [] -> 0 < INR (length doc).
Proof. intros [|x doc] NE; [congruence|]. apply lt_0_INR. cbn. lia. Qed.
Lemma share_nonneg : forall doc w, 0 <= share doc w.
Proof.
  intros doc w. unfold share. destruct doc as [|x doc]; [cbn [count_occ]; unfold Rdiv; cbn [INR]; lra|].
  apply Rmult_le_pos; [apply pos_INR|]. apply Rlt_le, Rinv_0_lt_compat, len_pos. discriminate.
Qed.
Lemma share_pos : forall doc w, 0 < share doc w <-> In w doc.
Proof.
  intros doc w. unfold share. rewrite (count_occ_In eq_dec). split.
  - intros L. destruct (count_occ eq_dec doc w) eqn:E; [|lia]. cbn [INR] in L. unfold Rdiv in L. lra.
  - intros L. assert (doc <> []) by (intros ->; cbn in L; lia). apply Rdiv_lt_0_compat; [apply lt_0_INR; lia | apply len_pos; assumption].
Qed.
Lemma share_zero : forall doc w, ~ In w doc -> share doc w = 0.
Proof. intros doc w NI. pose proof (share_nonneg doc w). pose proof (share_pos doc w). destruct (Rle_lt_or_eq_dec 0 (share doc w)); tauto || lra. Qed.
Lemma share_dist : forall W doc, NoDup W -> incl doc W -> doc <> [] -> distribution W (share doc).
Proof.
  intros W doc ND IN NE. split; [intros; apply share_nonneg|]. unfold share, Rdiv. rewrite Sum_scal_r, count_sum by assumption. field.
  pose proof (len_pos doc NE). lra.
Qed.

(** ** The dictionary of two documents *)
Lemma dic_eq : forall doc1 doc2, d_add_documents d_empty [doc1; doc2] (Some 2000000%Z) = Ok (upd (upd d_empty doc1) doc2).
Proof. intros. reflexivity. Qed.

Section Dic.
Variables doc1 doc2 : list pystr.
Definition dic : dictionary := upd (upd d_empty doc1) doc2.
Definition voc : list pystr := dkeys (d_token2id dic).
Definition id_of (w : pystr) : nat := match dget (d_token2id dic) w with Some i => i | None => 0%nat end.
Lemma dic_inv : d_inv dic.
Proof. apply upd_inv, upd_inv, d_inv_empty. Qed.
Lemma voc_in : forall w, In w voc <-> In w doc1 \/ In w doc2.
Proof. intros w. unfold voc, dic. rewrite upd_t2i, assign_In, upd_t2i, assign_In. cbn [d_token2id d_empty dkeys map In]. tauto. Qed.
Lemma voc_nd : NoDup voc.
Proof. apply i_keys, dic_inv. Qed.
Lemma voc_len : length voc = d_len dic.
Proof. apply map_length. Qed.
Lemma id_get : forall w, In w voc -> dget (d_token2id dic) w = Some (id_of w).
Proof. intros w I. unfold id_of. apply dget_Some_key in I. destruct I as (i & E). rewrite E. reflexivity. Qed.
Lemma id_lt : forall w, In w voc -> (id_of w < d_len dic)%nat.
Proof. intros w I. exact (inv_id_lt dic w _ dic_inv (id_get w I)). Qed.
Lemma id_inj : forall a b, In a voc -> In b voc -> id_of a = id_of b -> a = b.
Proof. intros a b Ia Ib E. apply (inv_inj dic dic_inv a b (id_of a)); [apply id_get; exact Ia | rewrite E; apply id_get; exact Ib]. Qed.
Lemma id_ex : forall i, (i < d_len dic)%nat -> exists w, In w voc /\ id_of w = i.
Proof.
  intros i L. destruct (inv_id_ex dic i dic_inv L) as (w & E). exists w. split; [apply dget_Some_key; eauto | unfold id_of; rewrite E; reflexivity].
Qed.
Lemma ids_perm : Permutation (map id_of voc) (seq 0 (d_len dic)).
Proof.
  replace (map id_of voc) with (dvals (d_token2id dic)); [apply i_perm, dic_inv|]. unfold voc, dkeys, dvals. rewrite map_map. apply map_ext_in. intros (w, i) I. cbn.
  unfold id_of. rewrite (In_dget (d_token2id dic) w i (i_keys _ dic_inv) I). reflexivity.
Qed.
Lemma items_in : forall i w, In (i, w) (items dic) <-> In w voc /\ i = id_of w.
Proof.
  intros i w. unfold items. rewrite in_map_iff. split.
  - intros ((w', i') & E & I). cbn in E. injection E as -> ->. split; [apply in_map_iff; exists (w, i); auto|]. unfold id_of. rewrite (In_dget _ _ _ (i_keys _ dic_inv) I). reflexivity.
  - intros (I & ->). exists (w, id_of w). split; [reflexivity|]. apply dget_In, id_get. exact I.
Qed.
Lemma least_words : forall p q D x, least_cost (seq 0 (d_len dic)) p q D x <-> least_cost voc (fun a => p (id_of a)) (fun a => q (id_of a)) (fun a b => D (id_of a) (id_of b)) x.
Proof.
  intros p q D x.
  set (g := fun i => match find (fun w => (id_of w =? i)%nat) voc with Some w => w | None => [] end).
  assert (G : forall a, In a voc -> g (id_of a) = a).
  { intros a I. unfold g. destruct (find (fun w => (id_of w =? id_of a)%nat) voc) as [w|] eqn:F.
    - apply find_some in F. destruct F as (Iw & E). apply Nat.eqb_eq in E. exact (id_inj w a Iw I E).
    - apply (find_none _ _ F a) in I. rewrite Nat.eqb_refl in I. discriminate. }
  rewrite (least_rename id_of g voc p q D x G). split; apply least_perm; [symmetry|]; apply ids_perm.
Qed.

Lemma nbow_fold : forall (n : R) (l : list (nat * nat)) v k, NoDup (map fst l) ->
  let r := fold_left (fun (v : nat -> R) if_ => fun k => if (k =? fst if_)%nat then INR (snd if_) / n else v k) l v k in
  (forall c, In (k, c) l -> r = INR c / n) /\ (~ In k (map fst l) -> r = v k).
Proof.
  intros n l. induction l as [|(i, c) l IH]; intros v k ND; cbn [fold_left]; [split; [contradiction | reflexivity]|].
  cbn [map fst] in ND. apply NoDup_cons_iff in ND. destruct ND as (NI & ND). specialize (IH (fun k => if (k =? i)%nat then INR c / n else v k) k ND). destruct IH as (A & B). cbn [fst snd]. split.
  - intros c' [E|I]; [|apply A; exact I]. injection E as -> ->. rewrite B by exact NI. rewrite Nat.eqb_refl. reflexivity.
  - intros NK. cbn [map fst In] in NK. rewrite B by tauto. destruct (Nat.eqb_spec k i) as [->|]; [tauto | reflexivity].
Qed.
Lemma nbow_share : forall doc w, incl doc voc -> In w voc -> nbow dic doc (id_of w) = share doc w.
Proof.
  intros doc w IN I. unfold nbow. destruct (doc2bow_readonly_exact dic doc false (inv_inj dic dic_inv)) as (_ & SO & EX).
  set (bow := fst (snd (d_doc2bow dic doc false false))) in *. clearbody bow.
  assert (ND : NoDup (map fst bow)).
  { clear -SO. induction SO as [|a l SO IH FA]; constructor; [|exact IH]. intros HI. apply in_map_iff in HI. destruct HI as (b & E & HI). rewrite Forall_forall in FA. specialize (FA b HI). lia. }
  destruct (nbow_fold (INR (length doc)) bow (fun _ => 0) (id_of w) ND) as (A & B). destruct (in_dec eq_dec w doc) as [D1|D1].
  - apply A. apply EX. exists w. split; [apply id_get; exact I|]. split; [reflexivity|]. apply (count_occ_In eq_dec). exact D1.
  - rewrite (share_zero doc w D1). apply B. intros HI. apply in_map_iff in HI. destruct HI as ((i & c) & E & HI). cbn in E. subst i. apply EX in HI.
    destruct HI as (t & G & -> & L). assert (t = w) by (apply (inv_inj dic dic_inv t w (id_of w)); [exact G | apply id_get; exact I]). subst t.
    apply D1, (count_occ_In eq_dec). exact L.
Qed.

(** *** The distance matrix *)
Section Matrix.
Variables (d : nat) (m : kvs) (row : pystr -> vec).
Hypothesis ORE : one_row_each m.
Hypothesis ROW : forall w, In w voc -> row_of m w (row w).
Let E (a b : pystr) : R := chord d (row a) (row b).
Let pair (a b : pystr) : Prop := (In a doc1 /\ In b doc2) \/ (In b doc1 /\ In a doc2).
Let good (D : nat -> nat -> R) : Prop := (forall i j, D i j = D j i) /\
  forall a b, In a voc -> In b voc -> D (id_of a) (id_of b) = 0 \/ (D (id_of a) (id_of b) = E a b /\ pair a b).
Let keeps (D D' : nat -> nat -> R) : Prop := forall a b, In a voc -> In b voc -> D (id_of a) (id_of b) = E a b -> D' (id_of a) (id_of b) = E a b.

Lemma set_both_at : forall D a b x a' b', In a voc -> In b voc -> In a' voc -> In b' voc ->
  set_both D (id_of a) (id_of b) x (id_of a') (id_of b') = x /\ ((a' = a /\ b' = b) \/ (a' = b /\ b' = a)) \/
  set_both D (id_of a) (id_of b) x (id_of a') (id_of b') = D (id_of a') (id_of b') /\ ~ ((a' = a /\ b' = b) \/ (a' = b /\ b' = a)).
Proof.
  intros D a b x a' b' Ia Ib Ia' Ib'. unfold set_both.
  destruct (Nat.eqb_spec (id_of a') (id_of a)) as [E1|E1]; destruct (Nat.eqb_spec (id_of b') (id_of b)) as [E2|E2];
  destruct (Nat.eqb_spec (id_of a') (id_of b)) as [E3|E3]; destruct (Nat.eqb_spec (id_of b') (id_of a)) as [E4|E4]; cbn [andb orb];
  try (apply id_inj in E1; [|assumption|assumption]); try (apply id_inj in E2; [|assumption|assumption]); try (apply id_inj in E3; [|assumption|assumption]); try (apply id_inj in E4; [|assumption|assumption]);
  (left; split; [reflexivity|]; tauto) || (right; split; [reflexivity|]; intros [(-> & ->)|(-> & ->)]; congruence).
Qed.
Lemma get_normed_row : forall w, In w voc -> get_normed d m w = Ok (normed d (row w)).
Proof. intros w I. unfold get_normed. rewrite (proj2 (get_row m w (row w) ORE) (ROW w I)). reflexivity. Qed.
Lemma fill_row_ok : forall t1 its D, In t1 voc -> In t1 doc1 -> incl its (items dic) -> good D ->
  exists D', fill_row d m doc2 its (id_of t1) t1 D = Ok D' /\ good D' /\ keeps D D' /\ forall w, In (id_of w, w) its -> In w doc2 -> D' (id_of t1) (id_of w) = E t1 w.
Proof.
  intros t1 its D I1 J1. revert D. induction its as [|(j, w) its IH]; intros D IN G.
  - exists D. split; [reflexivity|]. split; [exact G|]. split; [intros a b _ _ H; exact H | intros w []].
  - assert (IW : In w voc /\ j = id_of w) by (apply items_in, IN; left; reflexivity). destruct IW as (IW & ->). assert (IN' : incl its (items dic)) by (intros x X; apply IN; right; exact X).
    assert (STEP : exists D1, good D1 /\ keeps D D1 /\ (In w doc2 -> D1 (id_of t1) (id_of w) = E t1 w) /\
      fill_row d m doc2 ((id_of w, w) :: its) (id_of t1) t1 D = fill_row d m doc2 its (id_of t1) t1 D1).
    { unfold fill_row. cbn [rfold fst snd]. destruct (memb w doc2) eqn:M; cbn [negb].
      - rewrite memb_true in M. destruct (Req_EM_T (D (id_of t1) (id_of w)) 0) as [Z0|Z0].
        + rewrite !get_normed_row by assumption. cbn [rbind]. rewrite euclid_chord. fold (E t1 w). exists (set_both D (id_of t1) (id_of w) (E t1 w)).
          assert (SY : E w t1 = E t1 w) by apply chord_sym. destruct G as (GS & GV). split; [split|split; [|split]].
          * intros i k. unfold set_both. rewrite (GS i k). destruct (i =? id_of t1)%nat, (k =? id_of w)%nat, (i =? id_of w)%nat, (k =? id_of t1)%nat; reflexivity.
          * intros a b Ia Ib. destruct (set_both_at D t1 w (E t1 w) a b I1 IW Ia Ib) as [(-> & [(-> & ->)|(-> & ->)])|(-> & _)].
            { right. split; [reflexivity | left; auto]. } { right. split; [symmetry; exact SY | right; auto]. } { apply GV; assumption. }
          * intros a b Ia Ib H. destruct (set_both_at D t1 w (E t1 w) a b I1 IW Ia Ib) as [(-> & [(-> & ->)|(-> & ->)])|(-> & _)]; [reflexivity | symmetry; exact SY | exact H].
          * intros _. destruct (set_both_at D t1 w (E t1 w) t1 w I1 IW I1 IW) as [(-> & _)|(_ & N)]; [reflexivity | tauto].
          * reflexivity.
        + exists D. split; [exact G|]. split; [intros a b _ _ H; exact H|]. split; [|reflexivity]. intros _. destruct (proj2 G t1 w I1 IW) as [H|(H & _)]; [contradiction | exact H].
      - exists D. split; [exact G|]. split; [intros a b _ _ H; exact H|]. split; [|reflexivity]. intros M2. rewrite memb_false in M. contradiction. }
    destruct STEP as (D1 & G1 & K1 & W1 & ->). destruct (IH D1 IN' G1) as (D' & EQ & G' & K' & W'). exists D'. split; [exact EQ|]. split; [exact G'|]. split.
    + intros a b Ia Ib H. apply K', K1; assumption.
    + intros w' [EW|IW'] M2; [|apply W'; assumption]. injection EW as _ ->. apply K'; auto.
Qed.
Lemma matrix_ok : exists D, distance_matrix d m doc1 doc2 (items dic) = Ok D /\ (forall i j, D i j = D j i) /\
  (forall a b, pair a b -> D (id_of a) (id_of b) = E a b) /\ (forall a b, In a voc -> In b voc -> ~ pair a b -> D (id_of a) (id_of b) = 0).
Proof.
  assert (GEN : forall its D, incl its (items dic) -> good D -> exists D', rfold (fun D it => if memb (snd it) doc1 then fill_row d m doc2 (items dic) (fst it) (snd it) D else Ok D) its D = Ok D' /\
    good D' /\ keeps D D' /\ forall a b, In (id_of a, a) its -> In a doc1 -> In b doc2 -> D' (id_of a) (id_of b) = E a b).
  { induction its as [|(i, t) its IH]; intros D IN G.
    - exists D. split; [reflexivity|]. split; [exact G|]. split; [intros a b _ _ H; exact H | intros a b []].
    - assert (IT : In t voc /\ i = id_of t) by (apply items_in, IN; left; reflexivity). destruct IT as (IT & ->). assert (IN' : incl its (items dic)) by (intros x X; apply IN; right; exact X).
      cbn [rfold fst snd]. destruct (memb t doc1) eqn:M.
      + rewrite memb_true in M. destruct (fill_row_ok t (items dic) D IT M (incl_refl _) G) as (D1 & -> & G1 & K1 & W1). destruct (IH D1 IN' G1) as (D' & EQ & G' & K' & W').
        exists D'. split; [exact EQ|]. split; [exact G'|]. split; [intros a b Ia Ib H; apply K', K1; assumption|].
        intros a b [EA|IA] Ja Jb; [|apply W'; assumption]. injection EA as _ ->. assert (IB : In b voc) by (apply voc_in; auto). apply K'; [exact IT | exact IB|]. apply W1; [apply items_in; auto | exact Jb].
      + destruct (IH D IN' G) as (D' & EQ & G' & K' & W'). exists D'. split; [exact EQ|]. split; [exact G'|]. split; [exact K'|].
        intros a b [EA|IA] Ja Jb; [|apply W'; assumption]. injection EA as _ ->. rewrite memb_false in M. contradiction. }
  destruct (GEN (items dic) (fun _ _ => 0) (incl_refl _)) as (D & EQ & (GS & GV) & _ & W).
  { split; [reflexivity|]. intros a b _ _. left. reflexivity. }
  exists D. split; [exact EQ|]. split; [exact GS|]. split.
  - intros a b [(A & B)|(B & A)].
    + apply W; [apply items_in; split; [apply voc_in; auto | reflexivity] | exact A | exact B].
    + rewrite GS. transitivity (E b a); [|apply chord_sym]. apply W; [apply items_in; split; [apply voc_in; auto | reflexivity] | exact B | exact A].
  - intros a b Ia Ib NP. destruct (GV a b Ia Ib) as [H|(_ & H)]; [exact H | contradiction].
Qed.
End Matrix.
End Dic.
