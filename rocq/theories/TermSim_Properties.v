(** The structure of term similarity matrices: diagonal, symmetry, column limits, dominance, and that nothing is left out
    without a reason. *)
From Verif Require Import Base Str Phrases_Proofs TermSim_Model TermSim_Spec.
From Coq Require Import QArith Qabs Lqa ZifyBool.
Open Scope nat_scope.

(** ** Off-diagonal triplets *)
Definition is_off (t : triplet) : bool := negb (t_row t =? t_col t).
Definition offs (ts : list triplet) : list triplet := filter is_off ts.
Definition cells (ts : list triplet) : list (nat * nat) := map fst (offs ts).
Lemma off_app : forall ts us k, off (ts ++ us) k = off ts k ++ off us k.
Proof. intros. apply filter_app. Qed.
Lemma off_one : forall r k v j, r <> k -> off [(r, k, v)] j = if k =? j then [(r, k, v)] else [].
Proof. intros r k v j N. unfold off. cbn [filter t_col t_row fst snd]. destruct (Nat.eqb_spec k j) as [->|]; [|reflexivity]. destruct (Nat.eqb_spec r j); [contradiction | reflexivity]. Qed.
Lemma off_diag : forall i v j, off [(i, i, v)] j = [].
Proof. intros. unfold off. cbn [filter t_col t_row fst snd]. destruct (Nat.eqb_spec i j); reflexivity. Qed.
Lemma filter_filter : forall {A} (f g : A -> bool) l, filter f (filter g l) = filter (fun x => g x && f x) l.
Proof. intros A f g. induction l as [|x l IH]; [reflexivity|]. cbn [filter]. destruct (g x); cbn [andb filter]; [destruct (f x); rewrite IH; reflexivity | exact IH]. Qed.
Lemma off_offs : forall ts k, off ts k = filter (fun t => t_col t =? k) (offs ts).
Proof.
  intros ts k. unfold off, offs. rewrite filter_filter. apply filter_ext. intros t. unfold is_off.
  destruct (Nat.eqb_spec (t_col t) k), (Nat.eqb_spec (t_row t) k), (Nat.eqb_spec (t_row t) (t_col t)); try reflexivity; congruence.
Qed.
Lemma Qsum_app : forall l m, (Qsum (l ++ m) == Qsum l + Qsum m)%Q.
Proof. induction l as [|x l IH]; intros m; cbn [app Qsum]; [ring|]. rewrite IH. ring. Qed.

Definition abs_sum (ts : list triplet) (k : nat) : Q := Qsum (map (fun t => Qabs (t_val t)) (off ts k)).
Definition relates (c : config) (t : triplet) : Prop := answered c (t_col t) (t_row t) (t_val t) \/ c_symmetric c = true /\ answered c (t_row t) (t_col t) (t_val t).
Record Inv (c : config) (m : nat) (s : state) : Prop := mkInv {
  i_diag : filter (fun t => t_row t =? t_col t) (s_triplets s) = map (fun i => (i, i, 1%Q)) (seq 0 m);
  i_count : forall k, s_nonzero s k = length (off (s_triplets s) k);
  i_limit : forall k, (Z.of_nat (s_nonzero s k) <= Z.max 0 (limit c))%Z;
  i_sum : c_dominant c = true -> forall k, (s_sum s k == abs_sum (s_triplets s) k)%Q /\ (s_sum s k < 1)%Q;
  i_range : forall t, In t (s_triplets s) -> t_row t < n_terms c /\ t_col t < n_terms c;
  i_nodup : NoDup (cells (s_triplets s));
  i_from : forall t, In t (offs (s_triplets s)) -> relates c t;
  i_assigned : c_symmetric c = true -> forall k r, In (k, r) (s_assigned s) <-> In (r, k) (cells (s_triplets s))
}.
Definition closed (s : state) : Prop := forall r k v, In (r, k, v) (s_triplets s) -> In (k, r, v) (s_triplets s).

Lemma cells_app : forall ts us, cells (ts ++ us) = cells ts ++ cells us.
Proof. intros. unfold cells, offs. rewrite filter_app, map_app. reflexivity. Qed.
Lemma cells_one : forall r k v, r <> k -> cells [(r, k, v)] = [(r, k)].
Proof. intros r k v N. unfold cells, offs, is_off. cbn [filter t_row t_col fst snd]. destruct (Nat.eqb_spec r k); [contradiction | reflexivity]. Qed.

(** What an open cell means. *)
Lemma cell_open : forall c s t1 t2 v, cell_full c s t1 t2 v = Ok false ->
  t1 < n_terms c /\ (c_dominant c = true -> s_sum s t1 + Qabs v < 1)%Q /\ (Z.of_nat (s_nonzero s t1) < limit c)%Z /\ (c_symmetric c = true -> ~ In (t1, t2) (s_assigned s)).
Proof.
  intros c s t1 t2 v H. unfold cell_full in H. destruct (Nat.leb_spec (n_terms c) t1); [discriminate|]. split; [assumption|].
  destruct (c_dominant c && Qle_bool 1 (s_sum s t1 + Qabs v)) eqn:D; [discriminate|]. destruct (Z.ltb_spec (limit c) (Z.of_nat (s_nonzero s t1))); [discriminate|]. destruct (Z.eqb_spec (Z.of_nat (s_nonzero s t1)) (limit c)); [discriminate|].
  split; [|split; [lia|]].
  - intros Hd. rewrite Hd in D. cbn [andb] in D. apply Qnot_le_lt. intros L. apply Qle_bool_iff in L. congruence.
  - intros Hs. rewrite Hs in H. cbn [andb] in H. injection H as H. apply memb_false in H. exact H.
Qed.
Lemma cell_total : forall c m s t1 t2 v, Inv c m s -> t1 < n_terms c -> (0 < limit c)%Z -> exists b, cell_full c s t1 t2 v = Ok b.
Proof.
  intros c m s t1 t2 v H L P. unfold cell_full. destruct (Nat.leb_spec (n_terms c) t1); [lia|]. destruct (c_dominant c && _); [eexists; reflexivity|].
  pose proof (i_limit _ _ _ H t1). destruct (Z.ltb_spec (limit c) (Z.of_nat (s_nonzero s t1))); [lia|]. destruct (_ =? _)%Z; eexists; reflexivity.
Qed.

Lemma populate_inv : forall c m s t1 t2 v, Inv c m s -> t1 <> t2 -> t2 < n_terms c -> cell_full c s t1 t2 v = Ok false ->
  (c_symmetric c = false -> ~ In (t2, t1) (cells (s_triplets s))) -> relates c (t2, t1, v) -> Inv c m (populate c s t1 t2 v).
Proof.
  intros c m s t1 t2 v H N L2 F Fr Rel. destruct (cell_open _ _ _ _ _ F) as (L1 & Ds & Lm & As). assert (N' : t2 <> t1) by congruence. constructor; cbn [populate s_triplets s_nonzero s_sum s_assigned].
  - rewrite filter_app, (i_diag _ _ _ H). cbn [filter t_row t_col fst snd]. destruct (Nat.eqb_spec t2 t1); [contradiction|]. apply app_nil_r.
  - intros k. rewrite off_app, app_length, <- (i_count _ _ _ H k), (off_one t2 t1 v k N'). unfold fset. rewrite (Nat.eqb_sym t1 k). destruct (Nat.eqb_spec k t1) as [->|]; cbn [length]; lia.
  - intros k. unfold fset. destruct (Nat.eqb_spec k t1) as [->|]; [lia | apply (i_limit _ _ _ H)].
  - intros D k. rewrite D. destruct (i_sum _ _ _ H D k) as [S1 S2]. unfold abs_sum. rewrite off_app, map_app, (off_one t2 t1 v k N'). unfold fset. rewrite (Nat.eqb_sym t1 k). destruct (Nat.eqb_spec k t1) as [->|].
    + split; [|apply Ds; exact D]. rewrite Qsum_app. cbn [map Qsum t_val snd]. rewrite S1. unfold abs_sum. ring.
    + split; [|exact S2]. rewrite Qsum_app. cbn [map Qsum]. rewrite S1. unfold abs_sum. ring.
  - intros t Ht. apply in_app_iff in Ht. destruct Ht as [Ht|[<-|[]]]; [apply (i_range _ _ _ H); exact Ht | cbn; auto].
  - rewrite cells_app, (cells_one t2 t1 v N'). apply NoDup_app_one; [apply (i_nodup _ _ _ H)|]. destruct (c_symmetric c) eqn:Sy; [|apply Fr; reflexivity]. intros Hin. apply (As eq_refl). apply (i_assigned _ _ _ H Sy). exact Hin.
  - intros t Ht. unfold offs in Ht. rewrite filter_app in Ht. apply in_app_iff in Ht. destruct Ht as [Ht|Ht]; [apply (i_from _ _ _ H); exact Ht|]. apply filter_In in Ht. destruct Ht as [[<-|[]] _]. exact Rel.
  - intros Sy k r. rewrite Sy, cells_app, (cells_one t2 t1 v N'), in_app_iff, <- (i_assigned _ _ _ H Sy k r). cbn [In]. split; [intros [E|E]; [injection E as <- <-; right; left; reflexivity | left; exact E] | intros [E|[E|[]]]; [right; exact E | injection E as <- <-; left; reflexivity]].
Qed.

(** ** Nothing is left out without a reason *)
Definition blocked_s (c : config) (s : state) (k : nat) (v : Q) : Prop := Z.of_nat (s_nonzero s k) = limit c \/ c_dominant c = true /\ (1 <= s_sum s k + Qabs v)%Q.
Definition done_s (c : config) (s : state) (k r : nat) (v : Q) : Prop :=
  In (r, k, v) (s_triplets s) \/ c_symmetric c = true /\ In (r, k) (cells (s_triplets s)) \/ blocked_s c s k v \/ c_symmetric c = true /\ blocked_s c s r v.
Definition grows (c : config) (s s' : state) : Prop :=
  (forall t, In t (s_triplets s) -> In t (s_triplets s')) /\ (forall k, s_nonzero s k <= s_nonzero s' k) /\ (forall k, (s_sum s k <= s_sum s' k)%Q).
Lemma grows_refl : forall c s, grows c s s.
Proof. intros. split; [auto|]. split; [auto|]. intros; apply Qle_refl. Qed.
Lemma grows_trans : forall c s s' s'', grows c s s' -> grows c s' s'' -> grows c s s''.
Proof. intros c s s' s'' (A & B & C) (A' & B' & C'). split; [auto|]. split; [intros k; specialize (B k); specialize (B' k); lia|]. intros k. eapply Qle_trans; eauto. Qed.
Lemma populate_grows : forall c s t1 t2 v, grows c s (populate c s t1 t2 v).
Proof.
  intros. split; [|split]; cbn [populate s_triplets s_nonzero s_sum].
  - intros t Ht. apply in_app_iff. left. exact Ht.
  - intros k. unfold fset. destruct (Nat.eqb_spec k t1) as [->|]; lia.
  - intros k. destruct (c_dominant c); [|apply Qle_refl]. unfold fset. destruct (Nat.eqb_spec k t1) as [->|]; [|apply Qle_refl]. pose proof (Qabs_nonneg v). lra.
Qed.
Lemma in_cells : forall (ts : list triplet) r k, In (r, k) (cells ts) <-> r <> k /\ exists v, In (r, k, v) ts.
Proof.
  intros ts r k. unfold cells. split.
  - intros H. apply in_map_iff in H. destruct H as ([[r' k'] v] & E & H). cbn [fst] in E. injection E as -> ->. apply filter_In in H. destruct H as [H O]. unfold is_off in O. cbn [t_row t_col fst snd] in O. split; [intros ->; rewrite Nat.eqb_refl in O; discriminate | exists v; exact H].
  - intros (N & v & H). apply in_map_iff. exists (r, k, v). split; [reflexivity|]. apply filter_In. split; [exact H|]. unfold is_off. cbn [t_row t_col fst snd]. destruct (Nat.eqb_spec r k); [contradiction | reflexivity].
Qed.
Lemma blocked_grows : forall c m m' s s' k v, Inv c m s -> Inv c m' s' -> (0 < limit c)%Z -> grows c s s' -> blocked_s c s k v -> blocked_s c s' k v.
Proof.
  intros c m m' s s' k v H H' P (_ & G1 & G2) [E|[D E]].
  - left. pose proof (i_limit _ _ _ H' k). specialize (G1 k). lia.
  - right. split; [exact D|]. specialize (G2 k). lra.
Qed.
Lemma done_grows : forall c m m' s s' k r v, Inv c m s -> Inv c m' s' -> (0 < limit c)%Z -> grows c s s' -> done_s c s k r v -> done_s c s' k r v.
Proof.
  intros c m m' s s' k r v H H' P G [D|[[Sy D]|[D|[Sy D]]]].
  - left. apply G. exact D.
  - right; left. split; [exact Sy|]. apply in_cells in D. destruct D as (N & u & D). apply in_cells. split; [exact N|]. exists u. apply G. exact D.
  - right; right; left. apply (blocked_grows c m m' s s'); assumption.
  - right; right; right. split; [exact Sy|]. apply (blocked_grows c m m' s s'); assumption.
Qed.
Lemma cell_shut : forall c s t1 t2 v, cell_full c s t1 t2 v = Ok true -> blocked_s c s t1 v \/ c_symmetric c = true /\ In (t1, t2) (s_assigned s).
Proof.
  intros c s t1 t2 v H. unfold cell_full in H. destruct (_ <=? _); [discriminate|]. destruct (c_dominant c && Qle_bool 1 (s_sum s t1 + Qabs v)) eqn:D.
  - left. right. apply andb_true_iff in D. destruct D as [D1 D2]. split; [exact D1 | apply Qle_bool_iff; exact D2].
  - destruct (_ <? _)%Z; [discriminate|]. destruct (Z.eqb_spec (Z.of_nat (s_nonzero s t1)) (limit c)) as [E|]; [left; left; exact E|]. injection H as H. apply andb_true_iff in H. destruct H as [H1 H2]. right. split; [exact H1 | apply memb_true in H2; exact H2].
Qed.

(** ** One row *)
Lemma populate_other : forall c s t1 t2 v k, k <> t1 -> s_sum (populate c s t1 t2 v) k = s_sum s k /\ s_nonzero (populate c s t1 t2 v) k = s_nonzero s k.
Proof. intros c s t1 t2 v k N. cbn [populate s_sum s_nonzero]. unfold fset. rewrite (proj2 (Nat.eqb_neq k t1) N). destruct (c_dominant c); [rewrite (proj2 (Nat.eqb_neq k t1) N)|]; split; reflexivity. Qed.
Lemma add_row_step : forall c m s t1 t2 v, Inv c m s -> (c_symmetric c = true -> closed s) -> (0 < limit c)%Z -> t1 <> t2 -> t1 < n_terms c -> t2 < n_terms c ->
  (c_symmetric c = false -> ~ In (t2, t1) (cells (s_triplets s))) -> answered c t1 t2 v ->
  exists s', add_row c t1 s (t2, v) = Ok s' /\ Inv c m s' /\ (c_symmetric c = true -> closed s') /\ grows c s s' /\ done_s c s' t1 t2 v /\
    (forall t, In t (s_triplets s') -> In t (s_triplets s) \/ t = (t2, t1, v) \/ c_symmetric c = true /\ t = (t1, t2, v)).
Proof.
  intros c m s t1 t2 v H Cl P N L1 L2 Fr An. unfold add_row. destruct (cell_total c m s t1 t2 v H L1 P) as (b & F). rewrite F. cbn [rbind]. destruct b.
  - exists s. split; [reflexivity|]. split; [exact H|]. split; [exact Cl|]. split; [apply grows_refl|]. split; [|auto]. destruct (cell_shut _ _ _ _ _ F) as [B|[Sy B]]; [right; right; left; exact B|]. right; left. split; [exact Sy|]. apply (i_assigned _ _ _ H Sy). exact B.
  - assert (I1 : Inv c m (populate c s t1 t2 v)) by (apply populate_inv; try assumption; left; exact An). destruct (c_symmetric c) eqn:Sy; cbn [negb].
    + destruct (cell_total c m s t2 t1 v H L2 P) as (b & F2). rewrite F2. cbn [rbind]. destruct b.
      * exists s. split; [reflexivity|]. split; [exact H|]. split; [exact Cl|]. split; [apply grows_refl|]. split; [|auto]. destruct (cell_shut _ _ _ _ _ F2) as [B|[_ B]]; [right; right; right; split; [exact Sy | exact B]|].
        exfalso. destruct (cell_open _ _ _ _ _ F) as (_ & _ & _ & As). apply (As Sy). apply (i_assigned _ _ _ H Sy). apply (i_assigned _ _ _ H Sy) in B. apply in_cells in B. destruct B as (N' & u & B). apply in_cells. split; [congruence|]. exists u. apply (Cl eq_refl). exact B.
      * eexists. split; [reflexivity|]. assert (F3 : cell_full c (populate c s t1 t2 v) t2 t1 v = Ok false).
        { destruct (populate_other c s t1 t2 v t2 ltac:(congruence)) as [Q1 Q2]. unfold cell_full in F2 |- *. rewrite Q1, Q2.
          destruct (n_terms c <=? t2); [discriminate|]. destruct (c_dominant c && Qle_bool 1 (s_sum s t2 + Qabs v)); [discriminate|]. destruct (_ <? _)%Z; [discriminate|]. destruct (_ =? _)%Z; [discriminate|].
          rewrite Sy in *. cbn [andb] in *. injection F2 as F2. f_equal. cbn [populate s_assigned]. rewrite Sy. apply memb_false. apply memb_false in F2. intros [E|E]; [congruence | contradiction]. }
        split; [apply populate_inv; try assumption; [congruence | intros; congruence | right; split; [exact Sy | exact An]]|].
        split; [|split; [|split]].
        -- intros _ r k u Hin. cbn [populate s_triplets] in *. rewrite !in_app_iff in *. destruct Hin as [[Hin|[E|[]]]|[E|[]]]; [left; left; apply (Cl eq_refl); exact Hin | injection E as -> -> ->; right; left; reflexivity | injection E as -> -> ->; left; right; left; reflexivity].
        -- eapply grows_trans; apply populate_grows.
        -- left. cbn [populate s_triplets]. rewrite !in_app_iff. left. right. left. reflexivity.
        -- intros t Ht. cbn [populate s_triplets] in Ht. rewrite !in_app_iff in Ht. destruct Ht as [[Ht|[<-|[]]]|[<-|[]]]; auto.
    + eexists. split; [reflexivity|]. split; [exact I1|]. split; [discriminate|]. split; [apply populate_grows|]. split; [left; cbn [populate s_triplets]; apply in_app_iff; right; left; reflexivity|].
      intros t Ht. cbn [populate s_triplets] in Ht. rewrite in_app_iff in Ht. destruct Ht as [Ht|[<-|[]]]; auto.
Qed.

(** ** One column *)
Lemma rfold_prefix : forall {A S} (f : S -> A -> result S) (P : list A -> S -> Prop) l,
  (forall pre a post s, l = pre ++ a :: post -> P pre s -> exists s', f s a = Ok s' /\ P (pre ++ [a]) s') ->
  forall s, P [] s -> exists s', rfold f l s = Ok s' /\ P l s'.
Proof.
  intros A S f P l H. assert (G : forall todo pre s, l = pre ++ todo -> P pre s -> exists s', rfold f todo s = Ok s' /\ P l s').
  { induction todo as [|a todo IH]; intros pre s E Hp; [rewrite app_nil_r in E; subst pre; exists s; split; [reflexivity | exact Hp]|].
    destruct (H pre a todo s E Hp) as (s1 & F & Hp1). cbn [rfold]. rewrite F. cbn [rbind]. apply (IH (pre ++ [a])); [rewrite <- app_assoc; exact E | exact Hp1]. }
  intros s Hs. apply (G l [] s eq_refl Hs).
Qed.
Definition with_diag (s : state) (i : nat) : state := mkState (s_triplets s ++ [(i, i, 1%Q)]) (s_nonzero s) (s_sum s) (s_assigned s).
Lemma cells_diag : forall i v, cells [(i, i, v)] = [].
Proof. intros. unfold cells, offs, is_off. cbn [filter t_row t_col fst snd]. rewrite Nat.eqb_refl. reflexivity. Qed.
Lemma offs_diag : forall ts i v, offs (ts ++ [(i, i, v)]) = offs ts.
Proof. intros. unfold offs. rewrite filter_app. unfold is_off at 2. cbn [filter t_row t_col fst snd]. rewrite Nat.eqb_refl. apply app_nil_r. Qed.
Lemma diag_inv : forall c m s, Inv c m s -> m < n_terms c -> Inv c (S m) (with_diag s m).
Proof.
  intros c m s H L. constructor; cbn [with_diag s_triplets s_nonzero s_sum s_assigned].
  - rewrite filter_app, (i_diag _ _ _ H). cbn [filter t_row t_col fst snd]. rewrite Nat.eqb_refl, seq_S, map_app. reflexivity.
  - intros k. rewrite off_app, off_diag, app_nil_r. apply (i_count _ _ _ H).
  - apply (i_limit _ _ _ H).
  - intros D k. unfold abs_sum. rewrite off_app, off_diag, app_nil_r. apply (i_sum _ _ _ H D).
  - intros t Ht. apply in_app_iff in Ht. destruct Ht as [Ht|[<-|[]]]; [apply (i_range _ _ _ H); exact Ht | cbn; auto].
  - rewrite cells_app, cells_diag, app_nil_r. apply (i_nodup _ _ _ H).
  - rewrite offs_diag. apply (i_from _ _ _ H).
  - intros Sy k r. rewrite cells_app, cells_diag, app_nil_r. apply (i_assigned _ _ _ H Sy).
Qed.
Lemma diag_grows : forall c s i, grows c s (with_diag s i).
Proof. intros. split; [intros t Ht; cbn; apply in_app_iff; left; exact Ht|]. split; [auto|]. intros; apply Qle_refl. Qed.
Lemma diag_closed : forall s i, closed s -> closed (with_diag s i).
Proof. intros s i H r k v Hin. cbn [with_diag s_triplets] in *. rewrite in_app_iff in *. destruct Hin as [Hin|[E|[]]]; [left; apply H; exact Hin | injection E as -> -> ->; right; left; reflexivity]. Qed.

Lemma t2i_inj : forall c, good_dictionary c -> forall t t' i, dget (c_token2id c) t = Some i -> dget (c_token2id c) t' = Some i -> t = t'.
Proof.
  intros c (N & P & _) t t' i H H'. assert (ND : NoDup (dvals (c_token2id c))) by (eapply Permutation_NoDup; [apply Permutation_sym; exact P | apply seq_NoDup]). apply dget_In in H, H'. clear P N. unfold dvals in ND. induction (c_token2id c) as [|[a b] d IH]; [destruct H|].
  cbn [map snd] in ND. inversion ND as [|? ? NI ND']; subst. destruct H as [H|H], H' as [H'|H']; [congruence | injection H as -> ->; exfalso; apply NI; apply (in_map snd) in H'; exact H' | injection H' as -> ->; exfalso; apply NI; apply (in_map snd) in H; exact H | apply IH; assumption].
Qed.
Lemma t2i_range : forall c t i, good_dictionary c -> dget (c_token2id c) t = Some i -> i < n_terms c.
Proof. intros c t i (_ & P & _) H. apply dget_In in H. apply (in_map snd) in H. cbn [snd] in H. apply (Permutation_in _ P) in H. apply in_seq in H. lia. Qed.
Lemma id2token_spec : forall c k, good_dictionary c -> k < n_terms c -> exists term, dget (id2token c) k = Some term /\ dget (c_token2id c) term = Some k.
Proof.
  intros c k (N & P & L) Lk. assert (ND : NoDup (dvals (c_token2id c))) by (eapply Permutation_NoDup; [apply Permutation_sym; exact P | apply seq_NoDup]).
  assert (Hk : In k (dvals (c_token2id c))) by (apply (Permutation_in _ (Permutation_sym P)); apply in_seq; lia). unfold dvals in Hk. apply in_map_iff in Hk. destruct Hk as ([term k'] & E & Hk). cbn [snd] in E. subst k'. exists term.
  assert (F : map fst (map (fun ti : pystr * nat => (snd ti, fst ti)) (c_token2id c)) = dvals (c_token2id c)) by (rewrite map_map; apply map_ext; reflexivity).
  split; [|apply In_dget; assumption]. unfold id2token. rewrite dict_of_NoDup by (rewrite F; exact ND). apply In_dget; [unfold dkeys; rewrite F; exact ND|]. apply in_map_iff. exists (term, k). split; [reflexivity | exact Hk].
Qed.
Lemma answers_spec : forall c term t1 z, good_dictionary c -> good_index c -> dget (c_token2id c) term = Some t1 ->
  NoDup (map fst (answers c term z)) /\ forall t2 v, In (t2, v) (answers c term z) -> t2 < n_terms c /\ t1 <> t2 /\ answered c t1 t2 v.
Proof.
  intros c term t1 z Gd Gi Ht. unfold answers. destruct (0 <? z)%Z; [|split; [constructor | intros ? ? []]]. destruct (Gi term (Z.to_nat z)) as [Gn Gs]. split.
  - clear Gs. induction (c_index c term (Z.to_nat z)) as [|[u v] l IH]; [constructor|]. cbn [flat_map fst snd map] in *. inversion Gn as [|? ? NI Gn']; subst. specialize (IH Gn'). destruct (dget (c_token2id c) u) as [i|] eqn:U; [|exact IH]. cbn [app map fst]. constructor; [|exact IH].
    intros X. apply in_map_iff in X. destruct X as ([i' v'] & E & X). cbn [fst] in E. subst i'. apply in_flat_map in X. destruct X as ([u' v''] & X1 & X2). cbn [fst snd] in X2. destruct (dget (c_token2id c) u') as [i'|] eqn:U'; [|destruct X2]. destruct X2 as [X2|[]]. injection X2 as -> ->. apply NI. rewrite (t2i_inj c Gd u u' i U U'). apply in_map_iff. exists (u', v'). split; [reflexivity | exact X1].
  - intros t2 v H. apply in_flat_map in H. destruct H as ([u v'] & H1 & H2). cbn [fst snd] in H2. destruct (dget (c_token2id c) u) as [i|] eqn:U; [|destruct H2]. destruct H2 as [H2|[]]. injection H2 as -> ->. split; [apply (t2i_range c u); assumption|].
    split; [|exists term, u, (Z.to_nat z); auto]. intros <-. apply Gs. apply in_map_iff. exists (u, v). split; [symmetry; exact (t2i_inj c Gd term u t1 Ht U) | exact H1].
Qed.
Lemma rmapM_total : forall {A B} (f : A -> result B) (g : A -> B) l, (forall x, In x l -> f x = Ok (g x)) -> rmapM f l = Ok (map g l).
Proof. intros A B f g. induction l as [|x l IH]; intros H; [reflexivity|]. cbn [rmapM map]. rewrite (H x (or_introl eq_refl)). cbn [rbind]. rewrite IH by (intros y Hy; apply H; right; exact Hy). reflexivity. Qed.
Lemma sort_by_idf_spec : forall {A} idfs (id : A -> nat) l, (forall x, In x l -> In (id x) (dkeys idfs)) -> exists l', sort_by_idf idfs id l = Ok l' /\ Permutation l l'.
Proof.
  intros A idfs id l H. unfold sort_by_idf. rewrite (rmapM_total _ (fun x => (Qopp (dget_or idfs (id x) 0%Q), id x, x))).
  - cbn [rbind]. eexists. split; [reflexivity|]. eapply perm_trans; [|apply Permutation_map; apply Permutation_isort]. rewrite map_map. cbn [snd]. rewrite map_id. apply Permutation_refl.
  - intros x Hx. unfold dget_or. destruct (dget idfs (id x)) as [q|] eqn:E; [reflexivity|]. exfalso. apply dget_None in E. exact (E (H x Hx)).
Qed.
Lemma rows_spec : forall c found, good_idfs c -> (forall t2 v, In (t2, v) found -> t2 < n_terms c) -> exists rs, rows c found = Ok rs /\ Permutation found rs.
Proof.
  intros c found G H. unfold rows, good_idfs in *. destruct (c_idfs c) as [idfs|].
  - apply sort_by_idf_spec. intros [t2 v] Hx. apply (Permutation_in _ (Permutation_sym G)). apply in_seq. specialize (H t2 v Hx). cbn [fst]. lia.
  - eexists. split; [reflexivity | apply Permutation_isort].
Qed.
Definition column_done (c : config) (s : state) (k : nat) : Prop :=
  (0 < limit c)%Z -> exists term m, dget (c_token2id c) term = Some k /\ (limit c - Z.of_nat (s_nonzero s k) <= m <= limit c)%Z /\ (c_symmetric c = false -> m = limit c) /\
    forall r v, In (r, v) (answers c term m) -> done_s c s k r v.
Lemma column_done_grows : forall c m m' s s' k, Inv c m s -> Inv c m' s' -> grows c s s' -> column_done c s k -> column_done c s' k.
Proof.
  intros c m m' s s' k H H' G D P. destruct (D P) as (term & z & D1 & D2 & D3 & D4). exists term, z. split; [exact D1|]. split; [destruct G as (_ & G & _); specialize (G k); lia|]. split; [exact D3|]. intros r v Hin. apply (done_grows c m m' s s'); try assumption. apply D4. exact Hin.
Qed.
Lemma add_column_step : forall c m s t1 (before : list nat), good_dictionary c -> good_idfs c -> good_index c -> Inv c m s -> (c_symmetric c = true -> closed s) -> m < n_terms c -> t1 < n_terms c -> ~ In t1 before ->
  (c_symmetric c = false -> forall t, In t (offs (s_triplets s)) -> In (t_col t) before) ->
  exists s', add_column c s (m, t1) = Ok s' /\ Inv c (S m) s' /\ (c_symmetric c = true -> closed s') /\ grows c s s' /\ column_done c s' t1 /\
    (c_symmetric c = false -> forall t, In t (offs (s_triplets s')) -> In (t_col t) (before ++ [t1])).
Proof.
  intros c m s t1 before Gd Gf Gi H Cl Lm L1 NB Bf. unfold add_column. fold (with_diag s m). assert (H1 : Inv c (S m) (with_diag s m)) by (apply diag_inv; assumption).
  assert (C1 : c_symmetric c = true -> closed (with_diag s m)) by (intros Sy; apply diag_closed; apply Cl; exact Sy).
  destruct (Z.leb_spec (limit c) 0) as [Le|Lt].
  - exists (with_diag s m). split; [reflexivity|]. split; [exact H1|]. split; [exact C1|]. split; [apply diag_grows|]. split; [intros P; lia|]. intros Sy t Ht. cbn [with_diag s_triplets] in Ht. rewrite offs_diag in Ht. apply in_app_iff. left. apply Bf; assumption.
  - destruct (id2token_spec c t1 Gd L1) as (term & T1 & T2). rewrite T1. cbn [of_option rbind]. destruct (Nat.leb_spec (n_terms c) t1); [lia|]. cbn [with_diag s_nonzero].
    set (z := (limit c - Z.of_nat (s_nonzero s t1))%Z). destruct (answers_spec c term t1 z Gd Gi T2) as [An As]. destruct (rows_spec c (answers c term z) Gf) as (rs & R1 & R2); [intros t2 v Ht; apply (As t2 v Ht)|]. rewrite R1. cbn [rbind].
    assert (Nr : NoDup (map fst rs)) by (eapply Permutation_NoDup; [apply Permutation_map; exact R2 | exact An]).
    destruct (rfold_prefix (add_row c t1) (fun pre s' => Inv c (S m) s' /\ (c_symmetric c = true -> closed s') /\ grows c (with_diag s m) s' /\
        (c_symmetric c = false -> forall t, In t (offs (s_triplets s')) -> In (t_col t) before \/ t_col t = t1 /\ In (t_row t) (map fst pre)) /\
        (forall r v, In (r, v) pre -> done_s c s' t1 r v)) rs) with (s := with_diag s m) as (s' & E & K1 & K2 & K3 & K4 & K5).
    + intros pre [t2 v] post s1 El (I1 & I2 & I3 & I4 & I5). assert (Hin : In (t2, v) (answers c term z)) by (apply (Permutation_in _ (Permutation_sym R2)); rewrite El; apply in_app_iff; right; left; reflexivity).
      destruct (As t2 v Hin) as (A1 & A2 & A3). assert (Npre : ~ In t2 (map fst pre)) by (rewrite El, map_app in Nr; cbn [map fst] in Nr; apply NoDup_remove_2 in Nr; intros X; apply Nr; apply in_app_iff; left; exact X).
      destruct (add_row_step c (S m) s1 t1 t2 v I1 I2 Lt A2 L1 A1) as (s2 & F & J1 & J2 & J3 & J4 & J5).
      { intros Sy X. apply in_cells in X. destruct X as (X1 & u & X2). destruct (I4 Sy (t2, t1, u)) as [Y|[_ Y]]; [unfold offs; apply filter_In; split; [exact X2|]; unfold is_off; cbn [t_row t_col fst snd]; rewrite (proj2 (Nat.eqb_neq t2 t1) X1); reflexivity | exact (NB Y) | exact (Npre Y)]. }
      { exact A3. }
      exists s2. split; [exact F|]. split; [exact J1|]. split; [exact J2|]. split; [eapply grows_trans; eassumption|]. split.
      * intros Sy t Ht. unfold offs in Ht. apply filter_In in Ht. destruct Ht as [Ht Ho]. destruct (J5 t Ht) as [X|[->|[X _]]]; [|right; split; [reflexivity|]; rewrite map_app; apply in_app_iff; right; left; reflexivity | congruence].
        destruct (I4 Sy t) as [Y|[Y1 Y2]]; [apply filter_In; split; assumption | left; exact Y | right; split; [exact Y1|]; rewrite map_app; apply in_app_iff; left; exact Y2].
      * intros r u Hr. apply in_app_iff in Hr. destruct Hr as [Hr|[Hr|[]]]; [apply (done_grows c (S m) (S m) s1 s2); try assumption; apply I5; exact Hr | injection Hr as <- <-; exact J4].
    + split; [exact H1|]. split; [exact C1|]. split; [apply grows_refl|]. split; [|intros ? ? []]. intros Sy t Ht. cbn [with_diag s_triplets] in Ht. rewrite offs_diag in Ht. left. apply Bf; assumption.
    + exists s'. split; [exact E|]. split; [exact K1|]. split; [exact K2|]. split; [eapply grows_trans; [apply diag_grows | exact K3]|]. split.
      * intros _. exists term, z. split; [exact T2|]. split; [|split].
        -- destruct K3 as (_ & K3 & _). specialize (K3 t1). cbn [with_diag s_nonzero] in K3. unfold z. lia.
        -- intros Sy. unfold z. rewrite (i_count _ _ _ H t1). assert (E0 : off (s_triplets s) t1 = []).
           { rewrite off_offs. destruct (filter _ (offs (s_triplets s))) as [|t l] eqn:Ef; [reflexivity|]. exfalso. assert (X : In t (filter (fun t => t_col t =? t1) (offs (s_triplets s)))) by (rewrite Ef; left; reflexivity). apply filter_In in X. destruct X as [X1 X2]. apply Nat.eqb_eq in X2. apply NB. rewrite <- X2. apply Bf; assumption. }
           rewrite E0. cbn [length]. lia.
        -- intros r v Hin. apply K5. apply (Permutation_in _ R2). exact Hin.
      * intros Sy t Ht. apply in_app_iff. destruct (K4 Sy t Ht) as [X|[X _]]; [left; exact X | right; left; symmetry; exact X].
Qed.

(** ** All columns *)
Lemma fold_max_spec : forall ks k, (forall x, In x (k :: ks) -> x <= fold_left Nat.max ks k) /\ In (fold_left Nat.max ks k) (k :: ks).
Proof.
  induction ks as [|y ks IH]; intros k; cbn [fold_left]; [split; [intros x [->|[]]; lia | left; reflexivity]|]. destruct (IH (Nat.max k y)) as [A B]. split.
  - intros x [<-|[<-|H]]; [specialize (A (Nat.max k y) (or_introl eq_refl)); lia | specialize (A (Nat.max k y) (or_introl eq_refl)); lia | apply A; right; exact H].
  - destruct B as [B|B]; [|right; right; exact B]. destruct (Nat.max_dec k y) as [E|E]; rewrite E in B at 1; rewrite <- B; [left; reflexivity | right; left; reflexivity].
Qed.
Lemma columns_spec : forall c, good_dictionary c -> good_idfs c -> exists cols, columns c = Ok cols /\ Permutation cols (seq 0 (n_terms c)).
Proof.
  intros c (N & P & L) G. unfold columns, good_idfs in *. destruct (c_idfs c) as [idfs|].
  - destruct (dkeys idfs) as [|k ks] eqn:E; [apply Permutation_length in G; rewrite seq_length in G; cbn in G; lia|].
    destruct (fold_max_spec ks k) as [M1 M2]. assert (Em : fold_left Nat.max ks k = n_terms c - 1).
    { apply (Permutation_in _ G) in M2. apply in_seq in M2. assert (X : In (n_terms c - 1) (k :: ks)) by (apply (Permutation_in _ (Permutation_sym G)); apply in_seq; lia). apply M1 in X. lia. }
    rewrite Em, Nat.eqb_refl. rewrite <- E in *. destruct (sort_by_idf_spec idfs (fun i : nat => i) (dkeys idfs) (fun x H => H)) as (l' & S1 & S2). exists l'. split; [exact S1|]. eapply perm_trans; [apply Permutation_sym; exact S2 | exact G].
  - eexists. split; [reflexivity|]. eapply perm_trans; [apply Permutation_sym; apply Permutation_isort | exact P].
Qed.
Definition final (c : config) (s : state) : Prop := Inv c (n_terms c) s /\ (c_symmetric c = true -> closed s) /\ forall k, k < n_terms c -> column_done c s k.
Lemma map_snd_combine : forall {A B} (l : list A) (m : list B), length l = length m -> map snd (combine l m) = m.
Proof. induction l as [|x l IH]; intros [|y m] H; try discriminate; [reflexivity|]. cbn [combine map snd]. f_equal. apply IH. injection H as H. exact H. Qed.
Lemma nth_pre : forall {A} n0 (cols : list A) pre m x post, combine (seq n0 (length cols)) cols = pre ++ (m, x) :: post -> m = n0 + length pre /\ length pre < length cols /\ In x cols /\ exists cpost, cols = map snd pre ++ x :: cpost.
Proof.
  intros A n0 cols. revert n0. induction cols as [|y cols IH]; intros n0 pre m x post E; [destruct pre; discriminate|]. cbn [length seq combine] in E. destruct pre as [|p pre].
  - cbn [app] in E. injection E as -> -> _. cbn [length map app]. split; [lia|]. split; [lia|]. split; [left; reflexivity | exists cols; reflexivity].
  - cbn [app] in E. injection E as <- E. destruct (IH _ _ _ _ _ E) as (-> & L & Hin & cp & Ec). cbn [length map snd app]. split; [lia|]. split; [lia|]. split; [right; exact Hin|]. exists cp. rewrite <- Ec. reflexivity.
Qed.
Lemma create_final : forall c, good_dictionary c -> good_idfs c -> good_index c -> (c_dtype c = F32 \/ c_dtype c = F64) ->
  exists s, create_source c = Ok (s_triplets s) /\ final c s.
Proof.
  intros c Gd Gf Gi Dt. unfold create_source. destruct (Nat.eqb_spec (n_terms c) 0) as [E0|_]; [destruct Gd as (_ & _ & L); lia|]. destruct (columns_spec c Gd Gf) as (cols & C1 & C2). rewrite C1. cbn [rbind].
  assert (Lc : length cols = n_terms c) by (rewrite (Permutation_length C2); apply seq_length). assert (Nc : NoDup cols) by (eapply Permutation_NoDup; [apply Permutation_sym; exact C2 | apply seq_NoDup]).
  destruct (rfold_prefix (add_column c) (fun pre s => Inv c (length pre) s /\ (c_symmetric c = true -> closed s) /\ (c_symmetric c = false -> forall t, In t (offs (s_triplets s)) -> In (t_col t) (map snd pre)) /\ forall k, In k (map snd pre) -> column_done c s k)
    (combine (seq 0 (length cols)) cols)) with (s := mkState [] (fun _ => 0) (fun _ => 0%Q) []) as (s & E & K1 & K2 & K3 & K4).
  - intros pre [m t1] post s El (I1 & I2 & I3 & I4). destruct (nth_pre 0 cols pre m t1 post El) as (-> & L & Hin & cp & Ec). cbn [Nat.add]. assert (L1 : t1 < n_terms c) by (apply (Permutation_in _ C2) in Hin; apply in_seq in Hin; lia).
    assert (NB : ~ In t1 (map snd pre)) by (rewrite Ec in Nc; apply NoDup_remove_2 in Nc; intros X; apply Nc; apply in_app_iff; left; exact X).
    destruct (add_column_step c (length pre) s t1 (map snd pre) Gd Gf Gi I1 I2 ltac:(lia) L1 NB I3) as (s' & F & J1 & J2 & J3 & J4 & J5).
    exists s'. split; [exact F|]. rewrite app_length, Nat.add_1_r, map_app. split; [exact J1|]. split; [exact J2|]. split; [exact J5|].
    intros k Hk. apply in_app_iff in Hk. destruct Hk as [Hk|[<-|[]]]; [apply (column_done_grows c (length pre) (S (length pre)) s s'); try assumption; apply I4; exact Hk | exact J4].
  - split; [|split; [intros _ r k v []|split; [intros _ t []|intros k []]]]. constructor; cbn [s_triplets s_nonzero s_sum s_assigned length filter seq map off]; try reflexivity.
    + intros k. lia.
    + intros _ k. split; [reflexivity|]. reflexivity.
    + intros t [].
    + constructor.
    + intros t [].
  - rewrite E. cbn [rbind]. exists s. rewrite combine_length, seq_length, Nat.min_id, Lc in K1. split.
    + assert (R : forallb (fun t => (t_row t <? n_terms c) && (t_col t <? n_terms c)) (s_triplets s) = true) by (apply forallb_forall; intros t Ht; destruct (i_range _ _ _ K1 t Ht); apply andb_true_iff; split; apply Nat.ltb_lt; assumption).
      rewrite R. destruct Dt as [->| ->]; reflexivity.
    + split; [exact K1|]. split; [exact K2|]. intros k Hk. apply K4. rewrite map_snd_combine by apply seq_length. apply (Permutation_in _ (Permutation_sym C2)). apply in_seq. lia.
Qed.

(** ** The promises *)
Definition well (c : config) : Prop := good_dictionary c /\ good_idfs c /\ good_index c /\ (c_dtype c = F32 \/ c_dtype c = F64).
Lemma of_final : forall c ts, well c -> create_source c = Ok ts -> exists s, ts = s_triplets s /\ final c s.
Proof. intros c ts (A & B & C & D) H. destruct (create_final c A B C D) as (s & E & F). exists s. split; [congruence | exact F]. Qed.
Theorem termsim_total : forall c, well c -> exists ts, create_source c = Ok ts.
Proof. intros c (A & B & C & D). destruct (create_final c A B C D) as (s & E & _). exists (s_triplets s). exact E. Qed.
Print Assumptions termsim_total.
Lemma entry_none : forall (ts : list triplet) r k, (forall v, ~ In (r, k, v) ts) -> (entry ts r k == 0)%Q.
Proof.
  intros ts r k H. unfold entry. destruct (filter _ ts) as [|t l] eqn:E; [reflexivity|]. exfalso. assert (X : In t (filter (fun t => (t_row t =? r) && (t_col t =? k)) ts)) by (rewrite E; left; reflexivity).
  apply filter_In in X. destruct X as [X1 X2]. apply andb_true_iff in X2. destruct X2 as [X2 X3]. apply Nat.eqb_eq in X2, X3. destruct t as [[r' k'] v]. cbn [t_row t_col fst snd] in X2, X3. subst. exact (H v X1).
Qed.
Lemma entry_cell : forall (ts : list triplet) r k v, NoDup (cells ts) -> r <> k -> In (r, k, v) ts -> (entry ts r k == v)%Q.
Proof.
  induction ts as [|[[r' k'] u] ts IH]; intros r k v N NE H; [destruct H|]. unfold cells, offs, is_off in N. cbn [filter t_row t_col fst snd] in N. unfold entry. cbn [filter t_row t_col fst snd].
  destruct (Nat.eqb_spec r' k') as [<-|NE']; cbn [negb] in N.
  - destruct H as [H|H]; [congruence|]. destruct (Nat.eqb_spec r' r) as [->|]; cbn [andb]; [destruct (Nat.eqb_spec r k); [congruence|]|]; apply IH; assumption.
  - cbn [map fst] in N. inversion N as [|? ? NI N']; subst. destruct H as [H|H].
    + injection H as -> -> ->. rewrite !Nat.eqb_refl. cbn [andb map Qsum t_val snd]. assert (Z0 : (entry ts r k == 0)%Q) by (apply entry_none; intros w Hw; apply NI; apply (proj2 (in_cells ts r k)); split; [exact NE | exists w; exact Hw]). unfold entry in Z0. rewrite Z0. ring.
    + destruct (Nat.eqb_spec r' r) as [->|]; cbn [andb]; [destruct (Nat.eqb_spec k' k) as [->|]|]; [|apply IH; assumption..]. exfalso. apply NI. apply (proj2 (in_cells ts r k)). split; [exact NE | exists v; exact H].
Qed.
(** The diagonal is one. *)
Theorem termsim_diagonal : forall c ts i, well c -> create_source c = Ok ts -> i < n_terms c -> (entry ts i i == 1)%Q.
Proof.
  intros c ts i W H L. destruct (of_final c ts W H) as (s & -> & F & _). pose proof (i_diag _ _ _ F) as D. unfold entry.
  rewrite (filter_ext (fun t => (t_row t =? i) && (t_col t =? i)) (fun t => (t_row t =? t_col t) && (t_row t =? i))) by (intros t; destruct (Nat.eqb_spec (t_row t) i), (Nat.eqb_spec (t_col t) i), (Nat.eqb_spec (t_row t) (t_col t)); try reflexivity; congruence).
  rewrite <- filter_filter, D. clear - L. assert (G : forall n a, (Qsum (map t_val (filter (fun t => t_row t =? i) (map (fun j => (j, j, 1%Q)) (seq a n)))) == if (a <=? i) && (i <? a + n) then 1 else 0)%Q).
  { induction n as [|n IH]; intros a; cbn [seq map filter t_row fst snd]; [destruct (Nat.leb_spec a i), (Nat.ltb_spec i (a + 0)); try reflexivity; lia|]. specialize (IH (S a)).
    destruct (Nat.eqb_spec a i) as [->|]; cbn [map Qsum t_val snd]; rewrite IH; destruct (Nat.leb_spec (S i) i), (Nat.ltb_spec i (S i + n)), (Nat.leb_spec i i), (Nat.ltb_spec i (i + S n)); cbn [andb]; try lia; try reflexivity;
    destruct (Nat.leb_spec (S a) i), (Nat.leb_spec a i), (Nat.ltb_spec i (S a + n)), (Nat.ltb_spec i (a + S n)); cbn [andb]; try lia; reflexivity. }
  rewrite G. cbn [Nat.leb andb Nat.add]. destruct (Nat.ltb_spec i (n_terms c)); [reflexivity | lia].
Qed.
Print Assumptions termsim_diagonal.
(** With symmetric=True it is symmetric. *)
Theorem termsim_symmetric : forall c ts r k, well c -> c_symmetric c = true -> create_source c = Ok ts -> (entry ts r k == entry ts k r)%Q.
Proof.
  intros c ts r k W Sy H. destruct (of_final c ts W H) as (s & -> & F & Cl & _). specialize (Cl Sy). destruct (Nat.eq_dec r k) as [->|NE]; [reflexivity|]. pose proof (i_nodup _ _ _ F) as N.
  destruct (in_dec (fun a b => eq_dec a b) (r, k) (cells (s_triplets s))) as [I1|I1].
  - apply in_cells in I1. destruct I1 as (_ & v & Hv). rewrite (entry_cell _ r k v N NE Hv). symmetry. apply entry_cell; [exact N | congruence | apply Cl; exact Hv].
  - rewrite !entry_none; [reflexivity | intros v Hv; apply I1; apply in_cells; split; [exact NE | exists v; apply Cl; exact Hv] | intros v Hv; apply I1; apply in_cells; split; [exact NE | exists v; exact Hv]].
Qed.
Print Assumptions termsim_symmetric.
(** No column has more than [nonzero_limit] entries off the diagonal; all entries are inside the matrix, no cell is given twice. *)
Theorem termsim_limit : forall c ts k, well c -> create_source c = Ok ts ->
  (Z.of_nat (length (off ts k)) <= Z.max 0 (limit c))%Z /\ (forall t, In t ts -> t_row t < n_terms c /\ t_col t < n_terms c) /\ NoDup (map fst (off ts k)).
Proof.
  intros c ts k W H. destruct (of_final c ts W H) as (s & -> & F & _). split; [rewrite <- (i_count _ _ _ F); apply (i_limit _ _ _ F)|]. split; [apply (i_range _ _ _ F)|]. pose proof (i_nodup _ _ _ F) as N. rewrite off_offs. unfold cells in N. clear - N.
  induction (offs (s_triplets s)) as [|t l IH]; [constructor|]. cbn [map filter] in *. inversion N as [|? ? NI N']; subst. destruct (t_col t =? k); [|apply IH; exact N']. cbn [map]. constructor; [|apply IH; exact N'].
  intros X. apply NI. apply in_map_iff in X. destruct X as (u & E & X). apply filter_In in X. apply in_map_iff. exists u. split; [exact E | apply X].
Qed.
Print Assumptions termsim_limit.
(** With dominant=True the absolute sum of a column off the diagonal stays below one. *)
Theorem termsim_dominant : forall c ts k, well c -> c_dominant c = true -> create_source c = Ok ts -> (Qsum (map (fun t => Qabs (t_val t)) (off ts k)) < 1)%Q.
Proof. intros c ts k W D H. destruct (of_final c ts W H) as (s & -> & F & _). destruct (i_sum _ _ _ F D k) as [S1 S2]. unfold abs_sum in S1. rewrite <- S1. exact S2. Qed.
Print Assumptions termsim_dominant.
(** Every entry off the diagonal is an answer of the index, for its column or (if symmetric) its row. *)
Theorem termsim_answered : forall c ts r k v, well c -> create_source c = Ok ts -> r <> k -> In (r, k, v) ts -> answered c k r v \/ c_symmetric c = true /\ answered c r k v.
Proof.
  intros c ts r k v W H NE Hin. destruct (of_final c ts W H) as (s & -> & F & _). apply (i_from _ _ _ F (r, k, v)). apply filter_In. split; [exact Hin|]. unfold is_off. cbn [t_row t_col fst snd]. rewrite (proj2 (Nat.eqb_neq r k) NE). reflexivity.
Qed.
Print Assumptions termsim_answered.
(** An answer is only left out if its column (or, if symmetric, its row's column) is full or would cease to be dominant. *)
Definition blocked (c : config) (ts : list triplet) (k : nat) (v : Q) : Prop :=
  Z.of_nat (length (off ts k)) = limit c \/ c_dominant c = true /\ (1 <= Qsum (map (fun t => Qabs (t_val t)) (off ts k)) + Qabs v)%Q.
Lemma blocked_iff : forall c m s k v, Inv c m s -> blocked_s c s k v -> blocked c (s_triplets s) k v.
Proof. intros c m s k v F [B|[D B]]; [left; rewrite <- (i_count _ _ _ F); exact B | right; split; [exact D|]; destruct (i_sum _ _ _ F D k) as [S1 _]; unfold abs_sum in S1; rewrite <- S1; exact B]. Qed.
Theorem termsim_maximal : forall c ts term k, well c -> create_source c = Ok ts -> (0 < limit c)%Z -> dget (c_token2id c) term = Some k ->
  exists topn, (limit c - Z.of_nat (length (off ts k)) <= Z.of_nat topn <= limit c)%Z /\ (c_symmetric c = false -> Z.of_nat topn = limit c) /\
    forall term' r v, 0 < topn -> dget (c_token2id c) term' = Some r -> In (term', v) (c_index c term topn) ->
      In (r, k, v) ts \/ c_symmetric c = true /\ (exists u, In (r, k, u) ts) \/ blocked c ts k v \/ c_symmetric c = true /\ blocked c ts r v.
Proof.
  intros c ts term k W H P T. destruct (of_final c ts W H) as (s & -> & F & _ & M). assert (Gd : good_dictionary c) by apply W. destruct (M k (t2i_range c term k Gd T) P) as (term0 & m & T0 & L & Ns & D). assert (term0 = term) by (eapply t2i_inj; eassumption). subst term0.
  rewrite (i_count _ _ _ F) in L. assert (Lm : (Z.of_nat (length (off (s_triplets s) k)) <= limit c)%Z) by (rewrite <- (i_count _ _ _ F); pose proof (i_limit _ _ _ F k); lia).
  exists (Z.to_nat m). split; [lia|]. split; [intros Sy; specialize (Ns Sy); lia|]. intros term' r v Pt T' Hin. destruct (D r v) as [X|[[Sy X]|[X|[Sy X]]]].
  - unfold answers. destruct (Z.ltb_spec 0 m); [|lia]. apply in_flat_map. exists (term', v). split; [exact Hin|]. cbn [fst snd]. rewrite T'. left. reflexivity.
  - left. exact X.
  - right; left. split; [exact Sy|]. apply in_cells in X. apply X.
  - right; right; left. eapply blocked_iff; eassumption.
  - right; right; right. split; [exact Sy | eapply blocked_iff; eassumption].
Qed.
Print Assumptions termsim_maximal.
(** Without symmetry, dominance and limit, the matrix holds exactly the answers. *)
Theorem termsim_exact : forall c ts term term' r k v, well c -> c_symmetric c = false -> c_dominant c = false -> c_limit c = None -> create_source c = Ok ts ->
  dget (c_token2id c) term = Some k -> dget (c_token2id c) term' = Some r -> r <> k ->
  (In (term', v) (c_index c term (n_terms c)) -> In (r, k, v) ts) /\ (In (r, k, v) ts -> answered c k r v).
Proof.
  intros c ts term term' r k v W Sy Do Li H T T' NE. assert (Gd : good_dictionary c) by apply W. assert (Pn : 0 < n_terms c) by apply Gd. assert (Lim : limit c = Z.of_nat (n_terms c)) by (unfold limit; rewrite Li; reflexivity). split.
  - intros Hin. destruct (termsim_maximal c ts term k W H ltac:(lia) T) as (topn & _ & Et & M). specialize (Et Sy). assert (topn = n_terms c) by lia. subst topn. destruct (M term' r v Pn T' Hin) as [X|[[X _]|[[X|[X _]]|[X _]]]]; try congruence.
    exfalso. destruct (termsim_limit c ts k W H) as (_ & R & N). assert (X' : length (off ts k) = n_terms c) by lia. clear X.
    assert (Inc : incl (map fst (off ts k)) (map (fun i => (i, k)) (filter (fun i => negb (i =? k)) (seq 0 (n_terms c))))).
    { intros [a b] Hab. apply in_map_iff in Hab. destruct Hab as (t & E & Ht). unfold off in Ht. apply filter_In in Ht. destruct Ht as [Ht1 Ht2]. apply andb_true_iff in Ht2. destruct Ht2 as [Ht2 Ht3]. destruct (R t Ht1) as [R1 _]. destruct t as [[a' b'] w]. cbn [fst snd t_row t_col] in *. injection E as -> ->. apply Nat.eqb_eq in Ht2. subst b.
      apply in_map_iff. exists a. split; [reflexivity|]. apply filter_In. split; [apply in_seq; lia | exact Ht3]. }
    apply (NoDup_incl_length N) in Inc. rewrite !map_length in Inc. assert (Inc' : length (off ts k) <= length (filter (fun i => negb (i =? k)) (seq 0 (n_terms c)))) by exact Inc. rewrite X' in Inc'. clear Inc. assert (Lk : k < n_terms c) by (eapply t2i_range; eassumption).
    assert (C : length (filter (fun i => negb (i =? k)) (seq 0 (n_terms c))) < n_terms c).
    { assert (E : n_terms c = length (seq 0 (n_terms c))) by (symmetry; apply seq_length). rewrite E at 2. clear - Lk. assert (Hk : In k (seq 0 (n_terms c))) by (apply in_seq; lia). induction (seq 0 (n_terms c)) as [|x l IH]; [destruct Hk|]. cbn [filter length]. assert (Le : length (filter (fun i => negb (i =? k)) l) <= length l) by (clear; induction l as [|y l IH]; cbn [filter length]; [lia|]; destruct (negb (y =? k)); cbn [length]; lia).
      destruct (Nat.eqb_spec x k); cbn [negb length]; [lia|]. destruct Hk as [Hk|Hk]; [congruence|]. specialize (IH Hk). lia. }
    lia.
  - intros Hin. destruct (termsim_answered c ts r k v W H NE Hin) as [X|[X _]]; [exact X | congruence].
Qed.
Print Assumptions termsim_exact.
(** The uniform index meets the requirements of the construction. *)
Theorem uniform_good : forall token2id q term n, NoDup (dkeys token2id) -> NoDup (map fst (uniform_index token2id q term n)) /\ ~ In term (map fst (uniform_index token2id q term n)) /\
  length (uniform_index token2id q term n) = Nat.min n (length (filter (fun t => negb (Base.eqb t term)) (dkeys token2id))).
Proof.
  intros d q term n N. unfold uniform_index. set (items := isort _ _). rewrite firstn_map, map_map. cbn [fst].
  assert (P : Permutation (map snd items) (dkeys d)) by (unfold items; eapply perm_trans; [apply Permutation_map; apply Permutation_sym; apply Permutation_isort|]; rewrite map_map; cbn [snd]; apply Permutation_refl).
  assert (Nf : NoDup (map snd (filter (fun it : nat * pystr => negb (Base.eqb (snd it) term)) items))).
  { assert (Ni : NoDup (map snd items)) by (eapply Permutation_NoDup; [apply Permutation_sym; exact P | exact N]). clear - Ni. induction items as [|[i t] items IH]; [constructor|]. cbn [map filter snd] in *. inversion Ni as [|? ? NI Ni']; subst. destruct (negb (Base.eqb t term)); [|apply IH; exact Ni']. cbn [map snd]. constructor; [|apply IH; exact Ni'].
    intros X. apply NI. apply in_map_iff in X. destruct X as (y & E & X). apply filter_In in X. apply in_map_iff. exists y. split; [exact E | apply X]. }
  split; [|split].
  - rewrite <- firstn_map. apply NoDup_firstn. exact Nf.
  - intros X. apply in_map_iff in X. destruct X as (y & E & X). assert (In y (filter (fun it : nat * pystr => negb (Base.eqb (snd it) term)) items)) as Y by (rewrite <- (firstn_skipn n (filter _ items)); apply in_app_iff; left; exact X). apply filter_In in Y. destruct Y as [_ Y]. rewrite E, (proj2 (eqb_true term term) eq_refl) in Y. discriminate.
  - rewrite map_length, firstn_length. f_equal. assert (G : forall l : list (nat * pystr), length (filter (fun it => negb (Base.eqb (snd it) term)) l) = length (filter (fun t => negb (Base.eqb t term)) (map snd l))) by (induction l as [|[i t] l IH]; [reflexivity|]; cbn [filter map snd]; destruct (negb (Base.eqb t term)); cbn [length]; rewrite IH; reflexivity).
    rewrite G. apply Permutation_length. clear - P. induction P as [|x l l' P IH|x y l|l l' l'' P1 IH1 P2 IH2]; cbn [filter]; [constructor | destruct (negb (Base.eqb x term)); [constructor|]; exact IH | destruct (negb (Base.eqb x term)), (negb (Base.eqb y term)); try apply Permutation_refl; constructor | eapply perm_trans; eassumption].
Qed.
Print Assumptions uniform_good.

(** ** What goes wrong *)
(** float16 is accepted and then always fails. *)
Theorem termsim_float16_fails : forall c ts, c_dtype c = F16 -> create_source c <> Ok ts.
Proof. intros c ts D. unfold create_source. rewrite D. destruct (_ =? _); [discriminate|]. destruct (columns c); [|discriminate]. cbn [rbind]. destruct (rfold _ _ _); discriminate. Qed.
Print Assumptions termsim_float16_fails.
Definition abc : dict pystr nat := [(str "a", 0); (str "b", 1); (str "c", 2)].
Definition cfg (symmetric dominant : bool) (lim : option Z) idfs dt : config := mkConfig (uniform_index abc (1#2)) abc idfs symmetric dominant lim dt.
Theorem termsim_float16_refuted : exists c, good_dictionary c /\ good_idfs c /\ good_index c /\ c_dtype c = F16 /\ create_source c = Err ValueError.
Proof.
  exists (cfg true false None None F16). split; [|split; [exact Logic.I|split; [|split; [reflexivity | vm_compute; reflexivity]]]].
  - split; [vm_compute; repeat constructor; cbn; intuition discriminate|]. split; [apply Permutation_refl | unfold n_terms; cbn; lia].
  - intros term n. destruct (uniform_good abc (1#2) term n) as (A & B & _); [vm_compute; repeat constructor; cbn; intuition discriminate|]. split; assumption.
Qed.
(** A tf-idf model that has not seen all terms: the diagonal is incomplete. *)
Theorem termsim_missing_idf_refuted : exists c ts, good_dictionary c /\ c_dtype c = F32 /\ create_source c = Ok ts /\ (entry ts 2 2 == 0)%Q.
Proof.
  exists (mkConfig (fun _ _ => []) abc (Some [(0, 1%Q); (2, 1%Q)]) true false (Some 100%Z) F32). eexists. split; [split; [vm_compute; repeat constructor; cbn; intuition discriminate | split; [apply Permutation_refl | unfold n_terms; cbn; lia]]|]. split; [reflexivity|]. split; [vm_compute; reflexivity | reflexivity].
Qed.
(** ... and an index that answers with one of those fails with KeyError. *)
Theorem termsim_missing_idf_key_refuted : exists c, good_dictionary c /\ good_index c /\ c_dtype c = F32 /\ create_source c = Err KeyError.
Proof.
  exists (cfg true false None (Some [(0, 1%Q); (2, 1%Q)]) F32). split; [split; [vm_compute; repeat constructor; cbn; intuition discriminate | split; [apply Permutation_refl | unfold n_terms; cbn; lia]]|].
  split; [intros term n; destruct (uniform_good abc (1#2) term n) as (A & B & _); [vm_compute; repeat constructor; cbn; intuition discriminate|]; split; assumption|]. split; [reflexivity | vm_compute; reflexivity].
Qed.
(** An index that answers with the term itself spoils the diagonal. *)
Theorem termsim_self_refuted : exists c ts, good_dictionary c /\ good_idfs c /\ c_dtype c = F32 /\ create_source c = Ok ts /\ (entry ts 0 0 == 2)%Q.
Proof.
  exists (mkConfig (fun t _ => if Base.eqb t (str "a") then [(str "a", 1#2)] else []) abc None true false (Some 100%Z) F32). eexists.
  split; [split; [vm_compute; repeat constructor; cbn; intuition discriminate | split; [apply Permutation_refl | unfold n_terms; cbn; lia]]|]. split; [exact Logic.I|]. split; [reflexivity|]. split; [vm_compute; reflexivity | reflexivity].
Qed.

(** ** Examples *)
Lemma cfg_well : forall sy dom lim dt, dt = F32 \/ dt = F64 -> well (cfg sy dom lim None dt).
Proof.
  intros sy dom lim dt D. split; [split; [vm_compute; repeat constructor; cbn; intuition discriminate | split; [apply Permutation_refl | unfold n_terms; cbn; lia]]|]. split; [exact Logic.I|]. split; [|exact D].
  intros term n. destruct (uniform_good abc (1#2) term n) as (A & B & _); [vm_compute; repeat constructor; cbn; intuition discriminate|]. split; assumption.
Qed.
Example termsim_ex_full : create_source (cfg true false None None F32) = Ok [(0, 0, 1%Q); (1, 0, 1#2); (0, 1, 1#2); (2, 0, 1#2); (0, 2, 1#2); (1, 1, 1%Q); (2, 1, 1#2); (1, 2, 1#2); (2, 2, 1%Q)].
Proof. vm_compute. reflexivity. Qed.
(** A limit of one: the first column takes its partner, the last column stays alone. *)
Example termsim_ex_limit : create_source (cfg true false (Some 1%Z) None F32) = Ok [(0, 0, 1%Q); (1, 0, 1#2); (0, 1, 1#2); (1, 1, 1%Q); (2, 2, 1%Q)].
Proof. vm_compute. reflexivity. Qed.
(** Dominance: two halves would make one. *)
Example termsim_ex_dominant : create_source (cfg true true None None F64) = Ok [(0, 0, 1%Q); (1, 0, 1#2); (0, 1, 1#2); (1, 1, 1%Q); (2, 2, 1%Q)].
Proof. vm_compute. reflexivity. Qed.
(** In tf-idf order the rarest term comes first. *)
Example termsim_ex_tfidf : create_source (cfg false true None (Some [(0, 1%Q); (1, 2%Q); (2, 3%Q)]) F64) = Ok [(0, 0, 1%Q); (1, 2, 1#2); (1, 1, 1%Q); (2, 1, 1#2); (2, 2, 1%Q); (2, 0, 1#2)].
Proof. vm_compute. reflexivity. Qed.
