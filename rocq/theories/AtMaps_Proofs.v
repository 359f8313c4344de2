From Verif Require Import Base Str Utils_Model Utils_Properties AtMaps_Model AtMaps_Spec.

Lemma dget_iff : forall {K V} `{EqDec K} (m : dict K V) k v, NoDup (dkeys m) -> (dget m k = Some v <-> In (k, v) m).
Proof. intros. split; [apply dget_In | apply In_dget; assumption]. Qed.
Lemma fold_dset_get : forall {K V} `{EqDec K} (l : list (K * V)) m k, NoDup (map fst l) ->
  dget (fold_left (fun m e => dset m (fst e) (snd e)) l m) k = match dget l k with Some v => Some v | None => dget m k end.
Proof.
  intros K V EQ l. induction l as [|(k', v') l IH]; intros m k ND; [reflexivity|]. cbn [map fst] in ND. apply NoDup_cons_iff in ND. destruct ND as (NI & ND).
  cbn [fold_left fst snd]. rewrite IH by exact ND. cbn [dget]. destruct (eq_dec k' k) as [->|NE].
  - rewrite (proj2 (dget_None l k) NI). apply dget_dset_same.
  - rewrite dget_dset_other by exact NE. reflexivity.
Qed.
Lemma fold_dset_nd : forall {K V E} `{EqDec K} (f : E -> K) (g : dict K V -> E -> V) (l : list E) m, NoDup (dkeys m) -> NoDup (dkeys (fold_left (fun m e => dset m (f e) (g m e)) l m)).
Proof. intros K V E EQ f g l. induction l as [|e l IH]; intros m ND; [exact ND|]. cbn [fold_left]. apply IH. apply NoDup_dset. exact ND. Qed.
Lemma fold_key_get : forall {K V} `{EqDec K} (f : K -> V) (l : list K) m k,
  dget (fold_left (fun m d => dset m d (f d)) l m) k = if in_dec eq_dec k l then Some (f k) else dget m k.
Proof.
  intros K V EQ f l. induction l as [|x l IH]; intros m k; [reflexivity|]. cbn [fold_left]. rewrite IH. destruct (in_dec eq_dec k l) as [I|NI].
  - destruct (in_dec eq_dec k (x :: l)) as [|X]; [reflexivity|]. exfalso. apply X. right. exact I.
  - destruct (in_dec eq_dec k (x :: l)) as [[->|I]|X]; [apply dget_dset_same | contradiction|]. apply dget_dset_other. intros ->. apply X. left. reflexivity.
Qed.

Lemma has_docs_iff : forall m a, NoDup (dkeys m) -> has_docs m a = true <-> exists ds, In (a, ds) m /\ ds <> [].
Proof.
  intros m a ND. unfold has_docs. split.
  - destruct (dget m a) as [[|d ds]|] eqn:E; [discriminate | | discriminate]. intros _. exists (d :: ds). split; [apply dget_In; exact E | discriminate].
  - intros (ds & I & NE). apply In_dget in I; [|exact ND]. rewrite I. destruct ds; [congruence | reflexivity].
Qed.

Lemma merge_get : forall (a2d m : dict pystr (list nat)) a, NoDup (dkeys a2d) ->
  dget (fold_left (fun m e => if has_docs m (fst e) then dset m (fst e) (dget_or m (fst e) [] ++ snd e) else dset m (fst e) (snd e)) a2d m) a =
  match dget a2d a with
  | None => dget m a
  | Some ds => Some (dget_or m a [] ++ ds)
  end.
Proof.
  intros a2d. induction a2d as [|(a', ds') a2d IH]; intros m a ND; [reflexivity|]. unfold dkeys in ND. cbn [map fst] in ND. apply NoDup_cons_iff in ND. destruct ND as (NI & ND).
  cbn [fold_left fst snd]. rewrite IH by exact ND. cbn [dget].
  assert (STEP : forall b, dget (if has_docs m a' then dset m a' (dget_or m a' [] ++ ds') else dset m a' ds') b = if eq_dec a' b then Some (dget_or m a' [] ++ ds') else dget m b).
  { intros b. unfold has_docs, dget_or. destruct (dget m a') as [[|d ds]|] eqn:E; cbn [app]; rewrite dget_dset; destruct (eq_dec a' b); reflexivity. }
  destruct (eq_dec a' a) as [->|NE].
  - rewrite (proj2 (dget_None a2d a) NI). rewrite STEP. destruct (eq_dec a a); [reflexivity | congruence].
  - destruct (dget a2d a) as [ds|] eqn:E.
    + f_equal. f_equal. unfold dget_or. rewrite STEP. destruct (eq_dec a' a); [contradiction | reflexivity].
    + rewrite STEP. destruct (eq_dec a' a); [contradiction | reflexivity].
Qed.
Lemma merge_nd : forall (a2d m : dict pystr (list nat)), NoDup (dkeys m) ->
  NoDup (dkeys (fold_left (fun m e => if has_docs m (fst e) then dset m (fst e) (dget_or m (fst e) [] ++ snd e) else dset m (fst e) (snd e)) a2d m)).
Proof. intros a2d. induction a2d as [|e a2d IH]; intros m ND; [exact ND|]. cbn [fold_left]. apply IH. destruct (has_docs m (fst e)); apply NoDup_dset; exact ND. Qed.

(** Numbers for a list of names. *)
Lemma numbered_in : forall (l : list pystr) n a i, In (a, i) (combine l (seq n (length l))) <-> n <= i /\ nth_error l (i - n) = Some a.
Proof.
  intros l. induction l as [|x l IH]; intros n a i; cbn [length seq combine].
  - split; [intros [] | intros (_ & E); destruct (i - n); discriminate].
  - cbn [In]. rewrite IH. split.
    + intros [E|(L & E)]; [injection E as -> ->; rewrite Nat.sub_diag; split; [lia | reflexivity]|]. split; [lia|]. replace (i - n) with (S (i - S n)) by lia. exact E.
    + intros (L & E). destruct (Nat.eq_dec i n) as [->|NE]; [left; rewrite Nat.sub_diag in E; injection E as ->; reflexivity|]. right. split; [lia|]. replace (i - n) with (S (i - S n)) in E by lia. exact E.
Qed.
Lemma combine_fst : forall {A B} (l : list A) (m : list B), length l = length m -> map fst (combine l m) = l.
Proof. intros A B l. induction l as [|a l IH]; intros [|b m] L; cbn in *; try lia; [reflexivity|]. f_equal. apply IH. lia. Qed.
Lemma combine_snd : forall {A B} (l : list A) (m : list B), length l = length m -> map snd (combine l m) = m.
Proof. intros A B l. induction l as [|a l IH]; intros [|b m] L; cbn in *; try lia; [reflexivity|]. f_equal. apply IH. lia. Qed.
Lemma fold_left_map : forall {A B C} (f : A -> C -> A) (g : B -> C) l a, fold_left f (map g l) a = fold_left (fun a b => f a (g b)) l a.
Proof. intros A B C f g l. induction l as [|b l IH]; intros a; [reflexivity|]. cbn. apply IH. Qed.

Lemma Forall2_concat : forall {A B} (P : A -> B -> Prop) ls ms, Forall2 (Forall2 P) ls ms -> Forall2 P (concat ls) (concat ms).
Proof. intros A B P ls ms F. induction F as [|l m ls ms F1 F2 IH]; cbn; [constructor|]. apply Forall2_app; assumption. Qed.
Lemma rmapM_ex : forall {A B} (f : A -> result B) (P : A -> B -> Prop) l, (forall x, In x l -> exists y, f x = Ok y /\ P x y) -> exists ys, rmapM f l = Ok ys /\ Forall2 P l ys.
Proof.
  intros A B f P l. induction l as [|x l IH]; intros H; [exists []; split; [reflexivity | constructor]|].
  destruct (H x (or_introl eq_refl)) as (y & E & Py). destruct (IH (fun z Z0 => H z (or_intror Z0))) as (ys & Es & F). exists (y :: ys). cbn. rewrite E. cbn. rewrite Es. split; [reflexivity | constructor; assumption].
Qed.

Lemma SS_filter : forall {A} (R : A -> A -> Prop) (f : A -> bool) l, StronglySorted R l -> StronglySorted R (filter f l).
Proof.
  intros A R f l SS. induction SS as [|a l SS IH FA]; [constructor|]. cbn [filter]. destruct (f a); [|exact IH].
  constructor; [exact IH|]. rewrite Forall_forall in FA |- *. intros b J. apply filter_In in J. apply FA, J.
Qed.
Lemma SS_le_lt : forall l, StronglySorted (fun x y => Nat.leb x y = true) l -> NoDup l -> StronglySorted lt l.
Proof.
  intros l SS ND. induction SS as [|x l SS IH FA]; [constructor|]. apply NoDup_cons_iff in ND. destruct ND as (NX & ND). constructor; [apply IH; exact ND|].
  rewrite Forall_forall in FA |- *. intros y J. specialize (FA y J). apply Nat.leb_le in FA. destruct (Nat.eq_dec x y) as [->|]; [contradiction | lia].
Qed.

Lemma ddel_mid : forall {K V} `{EqDec K} (m m' : dict K V) k v, ~ In k (dkeys m) -> ddel (m ++ (k, v) :: m') k = m ++ m'.
Proof.
  intros K V EQ m m' k v. induction m as [|(k', v') m IH]; intros NI; cbn [app ddel].
  - destruct (eq_dec k k); [reflexivity | congruence].
  - cbn in NI. destruct (eq_dec k' k); [exfalso; tauto|]. f_equal. apply IH. tauto.
Qed.
Lemma fold_dset_fresh : forall {K V} `{EqDec K} (v : V) (ids : list K) (m : dict K V), NoDup ids -> (forall k, In k ids -> ~ In k (dkeys m)) ->
  fold_left (fun m d => dset m d v) ids m = m ++ map (fun d => (d, v)) ids.
Proof.
  intros K V EQ v ids. induction ids as [|d ids IH]; intros m ND F; cbn [fold_left map]; [rewrite app_nil_r; reflexivity|]. apply NoDup_cons_iff in ND. destruct ND as (NI & ND).
  rewrite dset_notin by (apply F; left; reflexivity). rewrite IH; [rewrite <- app_assoc; reflexivity | exact ND|]. intros k Ik. unfold dkeys. rewrite map_app, in_app_iff. intros [J|[<-|[]]]; [|contradiction].
  apply (F k); [right; exact Ik | exact J].
Qed.
Lemma fold_ddel_back : forall {K V} `{EqDec K} (v : V) (ids : list K) (m : dict K V), (forall k, In k ids -> ~ In k (dkeys m)) ->
  fold_left (fun m d => ddel m d) ids (m ++ map (fun d => (d, v)) ids) = m.
Proof.
  intros K V EQ v ids. induction ids as [|d ids IH]; intros m F; cbn [fold_left map]; [apply app_nil_r|].
  rewrite ddel_mid by (apply F; left; reflexivity). apply IH. intros k J. apply F. right. exact J.
Qed.
