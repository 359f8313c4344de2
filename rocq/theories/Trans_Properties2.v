(** Theorems about globally corrected retrieval and the approximate indexers; examples. *)
From Coq Require Import Reals Lra Psatz Lia Permutation.
From Verif Require Import Base Str LdaTrain_Model LdaTrain_Proofs2 SoftCosine_Model Lsi_Linear Trans_Model Trans_Spec Trans_Proofs Trans_Proofs2 Trans_Proofs3 Trans_Properties.
Local Open Scope R_scope.

(** ** C113: globally corrected retrieval *)
(** The target words are ordered by their rank less their score: the rank of a target word for [w] is the number of words, among those asked for and those sampled, which it fits better (words it fits equally
    well as [w] come before or after). *)
Theorem corrected_order : forall d1 d2 order argsort W src tgt words topn sample_num draw res, set_order order -> sorts argsort -> NoDup (dkeys tgt) ->
  translate d1 d2 order argsort W src tgt words topn true sample_num draw = Ok res ->
  (forall k, In k (dkeys res) <-> In k words) /\
  exists lex, NoDup lex /\ incl words lex /\ (forall x, In x lex -> In x (dkeys src)) /\
    (forall n, sample_num = Some n -> exists extra, (Z.of_nat (length extra) = Z.min n (Z.of_nat (length src) - Z.of_nat (length words)))%Z /\ (forall x, In x lex <-> In x words \/ In x extra) /\
       (NoDup (dkeys src) -> forall x, In x extra -> ~ In x words)) /\
    forall w, In w words -> exists ts r, dget res w = Some ts /\
      best_first (fun t => score d1 d2 W (vector src w) (vector tgt t) - INR (r t)) (dkeys tgt) topn ts /\
      forall t, let f := fun x => score d1 d2 W (vector src x) (vector tgt t) in (larger f lex w <= r t < not_smaller f lex w)%nat.
Proof.
  intros d1 d2 order argsort W src tgt words topn sample_num draw res HO HA ND H. destruct (translate_inv d1 d2 order argsort HA _ _ _ _ _ _ _ _ _ H) as (lex & EL & NL & NT & KS & DK & LT & G). split; [exact DK|]. exists lex.
  unfold gc_lexicon in EL. destruct sample_num as [n|]; [|discriminate]. destruct (Z.min n _ <? 0)%Z eqn:EZ; [discriminate|]. apply Z.ltb_ge in EZ. injection EL as EL. set (others := order (filter (fun w => negb (memb w words)) (dkeys src))) in *.
  set (extra := map (fun i => nth (draw i mod length others) others []) (seq 0 (Z.to_nat (Z.min n (Z.of_nat (length (dkeys src)) - Z.of_nat (length words)))))) in *.
  assert (IL : forall x, In x lex <-> In x words \/ In x extra) by (intros x; rewrite <- EL, (order_in _ HO); apply in_app_iff).
  split; [rewrite <- EL; apply HO|]. split; [intros x Hx; apply IL; now left|]. split; [exact KS|]. split.
  - intros n' En. injection En as <-. exists extra. assert (LK : length (dkeys src) = length src) by apply map_length. split; [unfold extra; rewrite map_length, seq_length, LK in *; lia|]. split; [exact IL|].
    intros NS x Hx J. unfold extra in Hx. apply in_map_iff in Hx. destruct Hx as [i [Ex Hi]]. apply in_seq in Hi. destruct (list_eq_dec eq_dec others []) as [EO|EO].
    + assert (ALL : incl (dkeys src) words).
      { intros y Hy. destruct (in_dec eq_dec y words) as [J'|J']; [exact J'|]. exfalso. assert (F : In y others) by (apply (order_in _ HO), filter_In; split; [exact Hy|]; apply negb_true_iff; now apply memb_false). rewrite EO in F. contradiction. }
      pose proof (NoDup_incl_length NS ALL). lia.
    + assert (F : In x others) by (rewrite <- Ex; apply nth_In, Nat.mod_upper_bound; destruct others; [congruence | discriminate]).
      apply (proj1 (order_in _ HO _ _)) in F. apply filter_In in F. destruct F as [_ F]. apply negb_true_iff in F. apply memb_false in F. contradiction.
  - intros w I. destruct (G w I) as [c [Ec E]]. eexists. exists (rank d1 d2 argsort W src tgt lex c). split; [exact E|].
    assert (LT' : (topn <= length (dkeys tgt))%nat) by (unfold dkeys; rewrite map_length; apply LT; intros X; subst words; contradiction).
    pose proof (top_words argsort HA (badness d1 d2 argsort true W src tgt lex c w) (dkeys tgt) topn ND LT') as B. split.
    + revert B. apply best_first_ext. intros x y _ _. unfold badness, sc. lra.
    + intros t f. apply (rank_between argsort HA f lex c w Ec).
Qed.
Print Assumptions corrected_order.
Theorem corrected_possible : forall d1 d2 order argsort W src tgt words topn n draw, set_order order -> sorts argsort -> NoDup (dkeys src) ->
  words <> [] -> tgt <> [] -> (forall w, In w words -> In w (dkeys src)) -> (topn <= length tgt)%nat -> (0 <= n)%Z -> NoDup words ->
  exists res, translate d1 d2 order argsort W src tgt words topn true (Some n) draw = Ok res.
Proof.
  intros d1 d2 order argsort W src tgt words topn n draw HO HA ND NW NT KS L Hn NDW. pose proof (NoDup_incl_length NDW (KS : incl words (dkeys src))) as LE. unfold dkeys in LE. rewrite map_length in LE.
  assert (LE2 : (Z.of_nat (length words) <= Z.of_nat (length src))%Z) by lia. destruct (lexicon_ok d1 order HO src words n draw LE2 Hn KS) as (lex & EL & IN & NDL & KL). apply (translate_ok d1 d2 order argsort HA) with (lex := lex); auto.
  intros E. subst lex. destruct words as [|w words]; [congruence|]. apply (IN w). now left.
Qed.
Print Assumptions corrected_possible.

(** ** Examples *)
Ltac nd := cbn [dkeys map fst]; repeat (apply NoDup_cons; [cbn; intros HH; repeat (destruct HH as [HH|HH]; [discriminate|]); exact HH|]); apply NoDup_nil.
Definition v2 (a b : R) : vec := fun i => match i with 0%nat => a | 1%nat => b | _ => 0 end.
Definition wa : pystr := [97%N]. Definition wb : pystr := [98%N]. Definition u1 : pystr := [117%N; 49%N]. Definition u2 : pystr := [117%N; 50%N].
Definition ex_src : vectors := [(wa, v2 1 0); (wb, v2 (4/5) (-3/5))].
Definition ex_tgt : vectors := [(u1, v2 (-3/5) (4/5)); (u2, v2 (4/5) (-3/5))].
Definition scaled (k : R) : mat := fun i j => if Nat.eqb i j then k else 0.
Lemma hat_v2 : forall a b i, a * a + b * b = 1 -> hat 2 (v2 a b) i = v2 a b i.
Proof. intros a b i H. unfold hat, len, dot. rewrite !sumn_S, sumn_0. cbn [v2]. replace (0 + a * a + b * b) with 1 by lra. rewrite sqrt_1. field. Qed.
Lemma score_v2 : forall k a b c d, a * a + b * b = 1 -> c * c + d * d = 1 -> score 2 2 (scaled k) (v2 a b) (v2 c d) = k * (a * c + b * d).
Proof.
  intros k a b c d H H'. unfold score, dot, image. rewrite !sumn_S, !sumn_0. rewrite !hat_v2 by assumption. unfold scaled. cbn [Nat.eqb v2]. ring.
Qed.
Lemma ex_scores : forall k, score 2 2 (scaled k) (vector ex_src wa) (vector ex_tgt u1) = k * (-3/5) /\ score 2 2 (scaled k) (vector ex_src wb) (vector ex_tgt u1) = k * (-24/25) /\
  score 2 2 (scaled k) (vector ex_src wa) (vector ex_tgt u2) = k * (4/5) /\ score 2 2 (scaled k) (vector ex_src wb) (vector ex_tgt u2) = k * 1.
Proof.
  intros k. change (vector ex_src wa) with (v2 1 0). change (vector ex_src wb) with (v2 (4/5) (-3/5)). change (vector ex_tgt u1) with (v2 (-3/5) (4/5)). change (vector ex_tgt u2) with (v2 (4/5) (-3/5)).
  rewrite !score_v2 by lra. repeat split; lra.
Qed.
Lemma ex_keys : NoDup (dkeys ex_src) /\ NoDup (dkeys ex_tgt).
Proof. split; nd. Qed.
Lemma one_of_two : forall f ts, best_first f (dkeys ex_tgt) 1 ts -> (f u2 < f u1 -> ts = [u1]) /\ (f u1 < f u2 -> ts = [u2]).
Proof.
  intros f ts (L & _ & I & _ & S2). destruct ts as [|t [|]]; cbn in L; try lia. assert (T : t = u1 \/ t = u2) by (specialize (I t (or_introl eq_refl)); destruct I as [<-|[<-|[]]]; auto).
  split; intros LT; destruct T as [-> | ->]; try reflexivity; exfalso.
  - specialize (S2 u2 u1 (or_introl eq_refl) (or_introl eq_refl)). assert (X : ~ In u1 [u2]) by (intros [E|[]]; discriminate). specialize (S2 X). lra.
  - specialize (S2 u1 u2 (or_introl eq_refl) (or_intror (or_introl eq_refl))). assert (X : ~ In u2 [u1]) by (intros [E|[]]; discriminate). specialize (S2 X). lra.
Qed.
Example nearest_ex : forall k draw, 0 < k -> exists res, translate 2 2 (nodup eq_dec) by_insertion (scaled k) ex_src ex_tgt [wa; wb; wa] 1 false None draw = Ok res /\ dget res wa = Some [u2] /\ dget res wb = Some [u2].
Proof.
  intros k draw Hk. destruct (translate_nearest 2 2 (nodup eq_dec) by_insertion (scaled k) ex_src ex_tgt [wa; wb; wa] 1 None draw insertion_sorts (proj2 ex_keys)) as [SU G].
  destruct (proj2 SU) as [res E]; [split; [discriminate|]; split; [discriminate|]; split; [intros w Hw; cbn in *; tauto | cbn; lia]|]. exists res. split; [exact E|]. destruct (G res E) as [_ G']. destruct (ex_scores k) as (A1 & B1 & A2 & B2). split.
  - destruct (G' wa ltac:(cbn; tauto)) as [ts [D [B _]]]. rewrite D. f_equal. apply (one_of_two _ _ B). lra.
  - destruct (G' wb ltac:(cbn; tauto)) as [ts [D [B _]]]. rewrite D. f_equal. apply (one_of_two _ _ B). lra.
Qed.
(** Training on two exact pairs: whatever solves least squares finds the map that swaps the coordinates. *)
Example exact_ex : forall lstsq, (forall m1 m2, length m1 = 2%nat -> length m2 = 2%nat -> least_misfit 2 2 m1 m2 (lstsq m1 m2)) ->
  let src := [(wa, v2 2 0); (wb, v2 0 3)] in let tgt := [(u1, v2 0 5); (u2, v2 7 0)] in
  exists W, train 2 2 (nodup eq_dec) lstsq src tgt [(wa, u1); (wb, u2)] = Ok W /\ image 2 W (v2 1 0) 0%nat = 0 /\ image 2 W (v2 1 0) 1%nat = 1.
Proof.
  intros lstsq LS src tgt. assert (L2 : forall a, 0 < a -> sqrt (0 + a * a + 0 * 0) = a) by (intros a Ha; replace (0 + a * a + 0 * 0) with (a * a) by lra; apply sqrt_square; lra).
  assert (L3 : forall a, 0 < a -> sqrt (0 + 0 * 0 + a * a) = a) by (intros a Ha; replace (0 + 0 * 0 + a * a) with (a * a) by lra; apply sqrt_square; lra).
  assert (HX : forall a i, 0 < a -> hat 2 (v2 a 0) i = v2 1 0 i) by (intros a i Ha; unfold hat, len, dot; rewrite !sumn_S, sumn_0; cbn [v2]; rewrite L2 by exact Ha; destruct i as [|[|i]]; cbn; field; lra).
  assert (HY : forall a i, 0 < a -> hat 2 (v2 0 a) i = v2 0 1 i) by (intros a i Ha; unfold hat, len, dot; rewrite !sumn_S, sumn_0; cbn [v2]; rewrite L3 by exact Ha; destruct i as [|[|i]]; cbn; field; lra).
  assert (NS : NoDup (dkeys tgt)) by nd.
  destruct (train 2 2 (nodup eq_dec) lstsq src tgt [(wa, u1); (wb, u2)]) as [W|e] eqn:TR.
  2: { exfalso. assert (OK : exists W, train 2 2 (nodup eq_dec) lstsq src tgt [(wa, u1); (wb, u2)] = Ok W); [|destruct OK; congruence]. eexists. apply (train_exact 2 2 (nodup eq_dec) lstsq src tgt [(wa, u1); (wb, u2)] _ nodup_order).
       split; [discriminate|]. split; [|reflexivity]. intros s t [E|[E|[]]]; injection E as <- <-; cbn; tauto. }
  exists W. split; [reflexivity|].
  destruct (proj1 (translate_nearest 2 2 (nodup eq_dec) by_insertion W src tgt [wa] 1 None (fun _ => 0%nat) insertion_sorts NS)) as [_ OK]. destruct OK as [res TL]; [split; [discriminate|]; split; [discriminate|]; split; [intros w Hw; cbn in *; tauto | cbn; lia]|].
  assert (A : forall s t, In (s, t) [(wa, u1); (wb, u2)] -> forall j, (j < 2)%nat -> image 2 (fun i j => if Nat.eqb i j then 0 else 1) (hat 2 (vector src s)) j = hat 2 (vector tgt t) j).
  { intros s t [E|[E|[]]] j Hj; injection E as <- <-.
    - change (vector src wa) with (v2 2 0). change (vector tgt u1) with (v2 0 5). rewrite HY by lra. unfold image. rewrite !sumn_S, sumn_0, !HX by lra. destruct j as [|[|j]]; [cbn; lra | cbn; lra | lia].
    - change (vector src wb) with (v2 0 3). change (vector tgt u2) with (v2 7 0). rewrite HX by lra. unfold image. rewrite !sumn_S, sumn_0, !HY by lra. destruct j as [|[|j]]; [cbn; lra | cbn; lra | lia]. }
  assert (NZ : forall t, In t (dkeys tgt) -> len 2 (vector tgt t) <> 0).
  { intros t Ht. cbn in Ht. destruct Ht as [<-|[<-|[]]].
    - change (vector tgt u1) with (v2 0 5). unfold len, dot. rewrite !sumn_S, sumn_0. cbn [v2].
 rewrite L3 by lra. intros X; lra.
    - change (vector tgt u2) with (v2 7 0). unfold len, dot. rewrite !sumn_S, sumn_0. cbn [v2]. rewrite L2 by lra. intros X; lra. }
  destruct (exact_dictionary 2 2 (nodup eq_dec) by_insertion lstsq src tgt [(wa, u1); (wb, u2)] W (fun i j => if Nat.eqb i j then 0 else 1) [wa] 1 res nodup_order insertion_sorts NS LS NZ A TR TL ltac:(lia) wa u1 (or_introl eq_refl)) as [FIT _].
  assert (IM : forall j, image 2 W (hat 2 (vector src wa)) j = image 2 W (v2 1 0) j) by (intros j; unfold image; apply sumn_ext; intros i _; change (vector src wa) with (v2 2 0); now rewrite HX by lra).
  rewrite <- !IM. rewrite !FIT by lia. change (vector tgt u1) with (v2 0 5). rewrite !HY by lra. cbn. split; reflexivity.
Qed.
Lemma rank_one : forall (f : pystr -> R) x y w, x <> y -> f x <> f y -> forall r, (larger f [x; y] w <= r < not_smaller f [x; y] w)%nat -> (w = x \/ w = y) -> r = if Rlt_dec (f w) (f x) then 1%nat else if Rlt_dec (f w) (f y) then 1%nat else 0%nat.
Proof.
  intros f x y w _ NE r H W. unfold larger, not_smaller in H. cbn [filter] in H. destruct W as [-> | ->].
  - destruct (Rlt_dec (f x) (f x)); [lra|]. destruct (Rlt_dec (f x) (f y)); destruct (Rlt_dec (f y) (f x)); cbn [length] in H; try lra; lia.
  - destruct (Rlt_dec (f y) (f y)); [lra|]. destruct (Rlt_dec (f x) (f y)); destruct (Rlt_dec (f y) (f x)); cbn [length] in H; try lra; lia.
Qed.
(** The correction adds ranks to scores of images that are not normalised: a quarter of the matrix gives other translations, although all cosines are the same. *)
Theorem corrected_scale_refuted : exists (W : mat) (k : R) src tgt words res res', 0 < k /\
  (forall x y, In x words -> In y (dkeys tgt) -> cosine 2 (image 2 (fun i j => k * W i j) (vector src x)) (vector tgt y) = cosine 2 (image 2 W (vector src x)) (vector tgt y)) /\
  translate 2 2 (nodup eq_dec) by_insertion W src tgt words 1 true (Some 0%Z) (fun _ => 0%nat) = Ok res /\
  translate 2 2 (nodup eq_dec) by_insertion (fun i j => k * W i j) src tgt words 1 true (Some 0%Z) (fun _ => 0%nat) = Ok res' /\
  dget res [97%N] = Some [[117%N; 50%N]] /\ dget res' [97%N] = Some [[117%N; 49%N]].
Proof.
  assert (TR : forall k, 0 < k -> exists res, translate 2 2 (nodup eq_dec) by_insertion (scaled k) ex_src ex_tgt [wa; wb] 1 true (Some 0%Z) (fun _ => 0%nat) = Ok res /\ exists ts, dget res wa = Some ts /\ best_first (fun t => score 2 2 (scaled k) (vector ex_src wa) (vector ex_tgt t) - (if eqb t u2 then 1 else 0)) (dkeys ex_tgt) 1 ts).
  { intros k Hk. assert (NDW : NoDup [wa; wb]) by nd.
    destruct (corrected_possible 2 2 (nodup eq_dec) by_insertion (scaled k) ex_src ex_tgt [wa; wb] 1 0 (fun _ => 0%nat) nodup_order insertion_sorts (proj1 ex_keys)) as [res E]; [discriminate|discriminate|intros w Hw; exact Hw|cbn; lia|lia|exact NDW|].
    exists res. split; [exact E|]. pose proof E as E0. destruct (corrected_order 2 2 (nodup eq_dec) by_insertion (scaled k) ex_src ex_tgt [wa; wb] 1 (Some 0%Z) (fun _ => 0%nat) res nodup_order insertion_sorts (proj2 ex_keys) E) as [_ (lex & NDL & IN & KS & XT & G)].
    destruct (XT 0%Z eq_refl) as (extra & LE & IL & _). assert (extra = []) by (destruct extra; [reflexivity | cbn in LE; lia]). subst extra.
    assert (LX : Permutation [wa; wb] lex) by (apply NoDup_Permutation; [exact NDW | exact NDL | intros x; rewrite IL; cbn; tauto]).
    assert (FL : forall P : pystr -> bool, length (filter P lex) = length (filter P [wa; wb])) by (intros P; symmetry; now apply filter_perm).
    destruct (G wa (or_introl eq_refl)) as (ts & r & D & B & RK). exists ts. split; [exact D|]. revert B. destruct (ex_scores k) as (A1 & B1 & A2 & B2).
    assert (R1 : r u1 = 0%nat).
    { set (f := fun x => score 2 2 (scaled k) (vector ex_src x) (vector ex_tgt u1)). assert (RK1 : (larger f [wa; wb] wa <= r u1 < not_smaller f [wa; wb] wa)%nat) by (unfold larger, not_smaller; rewrite <- !FL; apply RK). assert (NE : f wa <> f wb) by (unfold f; rewrite A1, B1; intros X; lra). rewrite (rank_one f wa wb wa ltac:(discriminate) NE _ RK1 (or_introl eq_refl)). unfold f. rewrite A1, B1. destruct (Rlt_dec _ _); [lra|]. destruct (Rlt_dec _ _); [lra | reflexivity]. }
    assert (R2 : r u2 = 1%nat).
    { set (f := fun x => score 2 2 (scaled k) (vector ex_src x) (vector ex_tgt u2)). assert (RK1 : (larger f [wa; wb] wa <= r u2 < not_smaller f [wa; wb] wa)%nat) by (unfold larger, not_smaller; rewrite <- !FL; apply RK). assert (NE : f wa <> f wb) by (unfold f; rewrite A2, B2; intros X; lra). rewrite (rank_one f wa wb wa ltac:(discriminate) NE _ RK1 (or_introl eq_refl)). unfold f. rewrite A2, B2. destruct (Rlt_dec _ _); [lra|]. destruct (Rlt_dec _ _); [reflexivity | lra]. }
    apply best_first_ext. intros x y Hx Hy. cbn in Hx, Hy. assert (V : forall z, [117%N; 49%N] = z \/ [117%N; 50%N] = z \/ False -> INR (r z) = if eqb z u2 then 1 else 0).
    { intros z [<-|[<-|[]]]; [change [117%N; 49%N] with u1; rewrite R1; reflexivity | change [117%N; 50%N] with u2; rewrite R2; reflexivity]. }
    rewrite !V by assumption. auto. }
  destruct (TR 1 ltac:(lra)) as (res & E & ts & D & B). destruct (TR (/ 4 * 1) ltac:(lra)) as (res' & E' & ts' & D' & B'). destruct (ex_scores 1) as (A1 & _ & A2 & _). destruct (ex_scores (/ 4 * 1)) as (A1' & _ & A2' & _).
  assert (SK : (fun i j => / 4 * scaled 1 i j) = scaled (/ 4 * 1)) by (apply FunctionalExtensionality.functional_extensionality; intros i; apply FunctionalExtensionality.functional_extensionality; intros j; unfold scaled; destruct (Nat.eqb i j); lra).
  exists (scaled 1), (/ 4), ex_src, ex_tgt, [wa; wb], res, res'. rewrite SK. split; [lra|]. split; [|split; [exact E|]; split; [exact E'|]; split].
  - intros x y _ _. rewrite <- SK. unfold cosine. assert (IM : forall j, image 2 (fun i j => / 4 * scaled 1 i j) (vector ex_src x) j = image 2 (scaled 1) (vector ex_src x) j / 4) by (intros j; unfold image, Rdiv; rewrite (Rmult_comm _ (/ 4)), <- sumn_scal; apply sumn_ext; intros i _; ring).
    set (z := image 2 (scaled 1) (vector ex_src x)) in *. rewrite (dot_ext 2 _ (vector ex_tgt y) (fun j => z j / 4) (vector ex_tgt y)) by (auto; intros; apply IM).
    rewrite dot_scal. assert (LN : len 2 (image 2 (fun i j => / 4 * scaled 1 i j) (vector ex_src x)) = len 2 z / 4).
    { unfold len. rewrite (dot_ext 2 _ _ (fun j => z j / 4) (fun j => z j / 4)) by (intros; apply IM). rewrite dot_scal, dot_sym, dot_scal. replace (dot 2 z z / 4 / 4) with (dot 2 z z * (/ 4 * / 4)) by field. rewrite sqrt_mult by (try lra; apply dot_nonneg). rewrite sqrt_square by lra. reflexivity. }
    rewrite LN. destruct (Req_dec (len 2 z * len 2 (vector ex_tgt y)) 0) as [Z0|NZ].
    + replace (len 2 z / 4 * len 2 (vector ex_tgt y)) with 0 by (unfold Rdiv; rewrite Rmult_assoc, (Rmult_comm (/ 4)), <- Rmult_assoc, Z0; ring). rewrite Z0. unfold Rdiv. rewrite Rinv_0. ring.
    + field. split; intros X; apply NZ; rewrite X; ring.
  - change (dget res wa = Some [u2]). rewrite D. f_equal. apply (one_of_two _ _ B). cbv beta. rewrite A1, A2. change (eqb u1 u2) with false. change (eqb u2 u2) with true. cbv iota. lra.
  - change (dget res' wa = Some [u1]). rewrite D'. f_equal. apply (one_of_two _ _ B'). cbv beta. rewrite A1', A2'. change (eqb u1 u2) with false. change (eqb u2 u2) with true. cbv iota. lra.
Qed.
Print Assumptions corrected_scale_refuted.
(** A repeated word counts twice: asking for the same word as often as there are words and once more raises, although the plain retrieval answers. *)
Theorem corrected_repeat_refuted : exists words, translate 2 2 (nodup eq_dec) by_insertion (scaled 1) ex_src ex_tgt words 1 true (Some 5%Z) (fun _ => 0%nat) = Err ValueError /\
  exists res, translate 2 2 (nodup eq_dec) by_insertion (scaled 1) ex_src ex_tgt words 1 false (Some 5%Z) (fun _ => 0%nat) = Ok res /\ dget res wa = Some [u2].
Proof.
  exists [wa; wb; wa]. split; [reflexivity|]. destruct (nearest_ex 1 (fun _ => 0%nat) ltac:(lra)) as (res & E & D & _). exists res. split; [exact E | exact D].
Qed.
Print Assumptions corrected_repeat_refuted.
(** The sample is drawn with replacement: it can hold the same word over and over, so that fewer words than asked for take part. *)
Theorem corrected_sample_refuted : exists src words n draw lex, NoDup (dkeys src) /\ (n + Z.of_nat (length words) <= Z.of_nat (length src))%Z /\
  gc_lexicon (nodup eq_dec) src words (Some n) draw = Ok lex /\ (Z.of_nat (length lex) < n + Z.of_nat (length words))%Z.
Proof.
  exists [(wa, v2 1 0); (wb, v2 0 1); (u1, v2 1 1); (u2, v2 1 2)], [wa], 3%Z, (fun _ => 0%nat), [wa; wb]. split; [nd|].
  split; [cbn; lia|]. split; [reflexivity | cbn; lia].
Qed.
Print Assumptions corrected_sample_refuted.
(** Without a number of samples there is no corrected retrieval. *)
Theorem corrected_needs_sample : forall d1 d2 order argsort W src tgt words topn draw, translate d1 d2 order argsort W src tgt words topn true None draw = Err RuntimeErr.
Proof. reflexivity. Qed.
Print Assumptions corrected_needs_sample.

(** ** C114: the approximate indexers *)
Lemma similar_ok : forall (g : R -> R) (labels : list pystr) nns, (forall n, In n nns -> (fst n < length labels)%nat) ->
  rmapM (fun n : nat * R => match nth_error labels (fst n) with Some w => Ok (w, g (snd n)) | None => Err IndexError end) nns = Ok (map (fun n => (nth (fst n) labels [], g (snd n))) nns).
Proof. intros g labels nns H. apply rmapM_fun. intros n Hn. rewrite (nth_error_nth' labels []) by now apply H. reflexivity. Qed.
(** Annoy's angular distance of two vectors is sqrt (2 (1 - cos)): the reported similarity 1 - d/2 lies between 0 and 1 and keeps the order of the cosines. *)
Theorem annoy_order : forall d (vs : list vec) (q : vec) (labels : list pystr) idx, (length labels = length vs)%nat -> (forall i, In i idx -> (i < length vs)%nat) ->
  (forall i, In i idx -> -1 <= cosine d q (nth i vs (fun _ => 0)) <= 1) ->
  let c := fun i => cosine d q (nth i vs (fun _ => 0)) in
  exists r, annoy_similar labels (map (fun i => (i, sqrt (2 * (1 - c i)))) idx) = Ok r /\ map fst r = map (fun i => nth i labels []) idx /\
    forall a b, (a < length idx)%nat -> (b < length idx)%nat ->
      0 <= snd (nth a r ([], 0)) <= 1 /\ (snd (nth a r ([], 0)) <= snd (nth b r ([], 0)) <-> c (nth a idx 0%nat) <= c (nth b idx 0%nat)).
Proof.
  intros d vs q labels idx LL LI BC c. unfold annoy_similar. rewrite (similar_ok (fun x => 1 - x / 2)) by (intros n Hn; apply in_map_iff in Hn; destruct Hn as [i [<- Hi]]; cbn; rewrite LL; now apply LI).
  eexists. split; [reflexivity|]. split; [rewrite !map_map; reflexivity|]. intros a b Ha Hb.
  set (r := map _ _). set (s := fun k => snd (nth k r ([], 0))). fold (s a). fold (s b).
  assert (SV : forall k, (k < length idx)%nat -> s k = 1 - sqrt (2 * (1 - c (nth k idx 0%nat))) / 2).
  { intros k Hk. unfold s, r. rewrite map_map. rewrite (nth_indep _ ([], 0) ((fun i => (nth (fst (i, sqrt (2 * (1 - c i)))) labels [], 1 - snd (i, sqrt (2 * (1 - c i))) / 2)) 0%nat)) by (now rewrite map_length).
    rewrite (map_nth (fun i => (nth (fst (i, sqrt (2 * (1 - c i)))) labels [], 1 - snd (i, sqrt (2 * (1 - c i))) / 2))). reflexivity. }
  rewrite !SV by assumption. pose proof (BC _ (nth_In idx 0%nat Ha)) as CA. pose proof (BC _ (nth_In idx 0%nat Hb)) as CB. fold (c (nth a idx 0%nat)) in CA. fold (c (nth b idx 0%nat)) in CB.
  set (x := c (nth a idx 0%nat)) in *. set (y := c (nth b idx 0%nat)) in *. split.
  - pose proof (sqrt_pos (2 * (1 - x))). assert (sqrt (2 * (1 - x)) <= 2) by (apply Rle_trans with (sqrt (2 * 2)); [apply sqrt_le_1_alt; lra | rewrite sqrt_square; lra]). lra.
  - split; intros H.
    + assert (X : sqrt (2 * (1 - y)) <= sqrt (2 * (1 - x))) by lra. apply sqrt_le_0 in X; lra.
    + assert (X : sqrt (2 * (1 - y)) <= sqrt (2 * (1 - x))) by (apply sqrt_le_1_alt; lra). lra.
Qed.
Print Assumptions annoy_order.
(** It is the cosine only when the cosine is 1 or 1/2. *)
Theorem annoy_is_cosine : forall c, -1 <= c <= 1 -> (1 - sqrt (2 * (1 - c)) / 2 = c <-> c = 1 \/ c = 1 / 2).
Proof.
  intros c Hc. split.
  - intros H. assert (E : sqrt (2 * (1 - c)) = 2 * (1 - c)) by lra. assert (Q : 2 * (1 - c) = (2 * (1 - c)) * (2 * (1 - c))) by (rewrite <- E at 2 3; symmetry; apply sqrt_sqrt; lra).
    assert (F : (1 - c) * (1 - 2 * (1 - c)) = 0) by lra. apply Rmult_integral in F. destruct F; [left | right]; lra.
  - intros [-> | ->]; [replace (2 * (1 - 1)) with 0 by lra; rewrite sqrt_0; lra | replace (2 * (1 - 1 / 2)) with 1 by lra; rewrite sqrt_1; lra].
Qed.
Print Assumptions annoy_is_cosine.
(** Perpendicular vectors are reported as 0.29 similar, opposite ones as 0. *)
Theorem annoy_cosine_refuted : exists x y r, cosine 2 x y = 0 /\ annoy_similar [u1] [(0%nat, sqrt (2 * (1 - cosine 2 x y)))] = Ok [(u1, r)] /\ 1 / 4 < r.
Proof.
  exists (v2 1 0), (v2 0 1). assert (C : cosine 2 (v2 1 0) (v2 0 1) = 0) by (unfold cosine; replace (dot 2 (v2 1 0) (v2 0 1)) with 0 by (unfold dot; rewrite !sumn_S, sumn_0; cbn; lra); unfold Rdiv; ring).
  exists (1 - sqrt (2 * (1 - cosine 2 (v2 1 0) (v2 0 1))) / 2). split; [exact C|]. split; [reflexivity|]. rewrite C. assert (sqrt (2 * (1 - 0)) < 3 / 2); [|lra]. rewrite <- (sqrt_square (3 / 2)) by lra. apply sqrt_lt_1; lra.
Qed.
Print Assumptions annoy_cosine_refuted.
(** nmslib's cosine distance is 1 - cos: what is reported is the cosine. *)
Theorem nmslib_cosine : forall d (vs : list vec) (q : vec) (labels : list pystr) idx, (length labels = length vs)%nat -> (forall i, In i idx -> (i < length vs)%nat) ->
  nmslib_similar labels (map (fun i => (i, 1 - cosine d q (nth i vs (fun _ => 0)))) idx) = Ok (map (fun i => (nth i labels [], cosine d q (nth i vs (fun _ => 0)))) idx).
Proof.
  intros d vs q labels idx LL LI. unfold nmslib_similar. rewrite (similar_ok (fun x => 1 - x)) by (intros n Hn; apply in_map_iff in Hn; destruct Hn as [i [<- Hi]]; cbn; rewrite LL; now apply LI).
  f_equal. rewrite map_map. apply map_ext. intros i. cbn. f_equal. ring.
Qed.
Print Assumptions nmslib_cosine.
Example nmslib_ex : nmslib_similar [u1; u2] [(1%nat, 0); (0%nat, 2)] = Ok [(u2, 1); (u1, -1)].
Proof. cbn. do 2 f_equal; [f_equal; lra|]. f_equal. f_equal. lra. Qed.
