(** Proofs about KeyedVectors_Model. *)

From Coq Require Import QArith.
From Verif Require Import Base Str Matutils_Model KeyedVectors_Model KeyedVectors_Spec.
From Coq Require Import ZifyBool ZifyNat.
Close Scope Q_scope.
Local Open Scope nat_scope.

(** ** Lists *)

Lemma set_nth_length : forall {A} (l : list A) i x, length (set_nth l i x) = length l.
Proof. induction l as [|a l IH]; intros [|i] x; cbn [set_nth length]; auto. Qed.

Lemma nth_error_set_nth : forall {A} (l : list A) i x j,
  nth_error (set_nth l i x) j = if (j =? i) && (i <? length l) then Some x else nth_error l j.
Proof.
  induction l as [|a l IH]; intros i x j.
  - destruct i; cbn [set_nth length]; rewrite ?andb_false_r; destruct j; try reflexivity;
      replace (_ <? 0) with false by lia; rewrite andb_false_r; reflexivity.
  - destruct i as [|i]; cbn [set_nth].
    + destruct j as [|j]; [reflexivity|]. reflexivity.
    + destruct j as [|j]; [reflexivity|]. cbn [nth_error length]. rewrite IH.
      replace (S j =? S i) with (j =? i) by lia. replace (S i <? S (length l)) with (i <? length l) by lia. reflexivity.
Qed.

Lemma pick_map : forall {A B} (f : A -> B) mask l, pick mask (map f l) = map f (pick mask l).
Proof. induction mask as [|b mask IH]; intros [|a l]; cbn; auto. destruct b; cbn; rewrite IH; reflexivity. Qed.

Lemma pick_filter : forall {A} (p : A -> bool) l, pick (map p l) l = filter p l.
Proof. induction l as [|a l IH]; cbn; auto. rewrite IH. reflexivity. Qed.

Fixpoint last_index {A} `{EqDec A} (x : A) (l : list A) : option nat :=
  match l with
  | [] => None
  | a :: r => match last_index x r with Some j => Some (S j) | None => if eq_dec a x then Some 0 else None end
  end.

Lemma last_index_nth : forall {A} `{EqDec A} (x : A) l j, last_index x l = Some j -> nth_error l j = Some x.
Proof.
  induction l as [|a l IH]; cbn; intros j E; [discriminate|].
  destruct (last_index x l) as [j'|].
  - injection E as <-. cbn. auto.
  - destruct (eq_dec a x); [|discriminate]. injection E as <-. cbn. congruence.
Qed.

Lemma last_index_none : forall {A} `{EqDec A} (x : A) l, last_index x l = None <-> ~ In x l.
Proof.
  induction l as [|a l IH]; cbn; [tauto|].
  destruct (last_index x l) as [j'|].
  - split; [discriminate|]. intros N. exfalso. apply N. right.
    destruct (in_dec eq_dec x l); auto. apply IH in n. discriminate.
  - destruct IH as [IH _]. specialize (IH eq_refl). destruct (eq_dec a x); split; try discriminate; tauto.
Qed.

Lemma last_index_NoDup : forall {A} `{EqDec A} l (x : A) j, NoDup l -> nth_error l j = Some x -> last_index x l = Some j.
Proof.
  induction l as [|a l IH]; intros x j ND E; [destruct j; discriminate|]. inversion ND; subst.
  destruct j as [|j]; cbn in *.
  - injection E as <-. destruct (last_index a l) eqn:L.
    + apply last_index_nth in L. apply nth_error_In in L. contradiction.
    + destruct (eq_dec a a); congruence.
  - rewrite (IH _ _ H3 E). reflexivity.
Qed.

Lemma last_index_map : forall {A B} `{EqDec A} `{EqDec B} (f : A -> B) (inj : forall a b, f a = f b -> a = b) l x,
  last_index (f x) (map f l) = last_index x l.
Proof.
  induction l as [|a l IH]; intros x; cbn; [reflexivity|]. rewrite IH. destruct (last_index x l); [reflexivity|].
  destruct (eq_dec (f a) (f x)), (eq_dec a x); try reflexivity; [exfalso; auto | subst; congruence].
Qed.

Lemma KStr_inj : forall a b, KStr a = KStr b -> a = b. Proof. congruence. Qed.

Section KVP.
Context {V R : Type}.
Implicit Types (m : kv V R).

(** ** add_vectors *)

Lemma add_keys_fields : forall ks m,
  index_to_key (fold_left add_key ks m) = index_to_key m ++ map Some ks /\
  next_index (fold_left add_key ks m) = next_index m /\ vectors (fold_left add_key ks m) = vectors m /\
  norms (fold_left add_key ks m) = norms m /\ counts (fold_left add_key ks m) = counts m.
Proof.
  induction ks as [|k ks IH]; intros m; cbn [fold_left map].
  - rewrite app_nil_r. repeat split.
  - destruct (IH (add_key m k)) as (A & B & C & D & E). rewrite A, B, C, D, E. cbn [add_key index_to_key next_index vectors norms counts].
    rewrite <- app_assoc. repeat split.
Qed.

Lemma add_keys_dget : forall ks m k,
  dget (key_to_index (fold_left add_key ks m)) k =
  match last_index k ks with Some j => Some (kv_len m + j) | None => dget (key_to_index m) k end.
Proof.
  induction ks as [|k0 ks IH]; intros m k; cbn [fold_left last_index]; [reflexivity|].
  rewrite IH. destruct (last_index k ks) as [j|].
  - f_equal. unfold kv_len. cbn [add_key index_to_key]. rewrite app_length. cbn. lia.
  - cbn [add_key key_to_index]. rewrite dget_dset. destruct (eq_dec k0 k); [f_equal; unfold kv_len; lia | reflexivity].
Qed.

Lemma has_index_str : forall m s, has_index_for m (KStr s) = dmem (key_to_index m) (KStr s).
Proof. intros. unfold has_index_for, get_index, dmem. destruct (dget _ _); reflexivity. Qed.

Lemma get_index_str : forall m s, get_index m (KStr s) = dget (key_to_index m) (KStr s).
Proof. intros. unfold get_index. destruct (dget _ _); reflexivity. Qed.

(** The rows of new keys. *)
Lemma last_new : forall (p : pystr -> bool) s ks (ws : list V), length ws = length ks -> p s = false ->
  match last_index s (pick (map negb (map p ks)) ks) with
  | Some j => nth_error (pick (map negb (map p ks)) ws) j
  | None => None
  end = last_given s ks ws.
Proof.
  intros p s ks. induction ks as [|k ks IH]; intros ws L P; [destruct ws; reflexivity|].
  destruct ws as [|w ws]; [discriminate|]. cbn [length] in L. injection L as L. cbn [map pick last_given].
  specialize (IH ws L P). destruct (p k) eqn:Ek; cbn [negb].
  - rewrite IH. destruct (last_given s ks ws); [reflexivity|]. destruct (eq_dec k s); [subst; congruence | reflexivity].
  - cbn [last_index]. destruct (last_index s _) as [j|] eqn:E; cbn [nth_error].
    + rewrite <- IH. assert (X : nth_error (pick (map negb (map p ks)) ws) j <> None).
      { apply last_index_nth in E. apply nth_error_Some. clear IH.
        assert (Len : length (pick (map negb (map p ks)) ws) = length (pick (map negb (map p ks)) ks)).
        { clear - L. revert ws L. induction ks as [|k ks IH]; intros [|w ws] L; cbn in *; try discriminate; [reflexivity|].
          injection L as L. destruct (negb (p k)); cbn; rewrite (IH _ L); reflexivity. }
        rewrite Len. apply nth_error_Some. congruence. }
      destruct (nth_error _ j); congruence.
    + rewrite <- IH. destruct (eq_dec k s); reflexivity.
Qed.

Lemma last_index_filter_false : forall (p : pystr -> bool) s ks, p s = true ->
  last_index s (pick (map negb (map p ks)) ks) = None.
Proof.
  intros p s ks P. apply last_index_none. rewrite map_map, pick_filter, filter_In. rewrite P. intros [_ X]; discriminate.
Qed.

(** Fancy assignment. *)
Lemma assign_length : forall idxs ws (vs : list V), length (assign vs idxs ws) = length vs.
Proof. induction idxs as [|i idxs IH]; intros [|w ws] vs; cbn [assign]; auto. rewrite IH, set_nth_length. reflexivity. Qed.

Lemma assign_spec : forall (p : pystr -> bool) (g : pystr -> option nat) m s i,
  (forall s, get_index m (KStr s) = g s) ->
  (forall a b j, g a = Some j -> g b = Some j -> a = b) ->
  (forall a, p a = true -> g a <> None) ->
  g s = Some i ->
  forall ks ws (vs : list V), length ws = length ks -> i < length vs ->
  nth_error (assign vs (known_indices m (map KStr (pick (map p ks) ks))) (pick (map p ks) ws)) i =
  match (if p s then last_given s ks ws else None) with Some w => Some w | None => nth_error vs i end.
Proof.
  intros p g m s i G Inj Def Gs. induction ks as [|k ks IH]; intros ws vs L Li.
  - destruct ws; [|discriminate]. cbn. destruct (p s); reflexivity.
  - destruct ws as [|w ws]; [discriminate|]. cbn [length] in L. injection L as L. cbn [map pick last_given].
    destruct (p k) eqn:Pk.
    + cbn [map known_indices]. rewrite G. destruct (g k) as [j|] eqn:Gk; [|exfalso; apply (Def k); auto].
      cbn [assign]. rewrite IH by (auto; rewrite set_nth_length; auto). rewrite nth_error_set_nth.
      destruct (p s) eqn:Ps.
      * destruct (last_given s ks ws) as [x|]; [reflexivity|]. destruct (eq_dec k s) as [->|NE].
        -- rewrite Gs in Gk. injection Gk as <-. replace (_ && _) with true by lia. reflexivity.
        -- replace (i =? j) with false; [reflexivity|]. symmetry. apply Nat.eqb_neq. intros ->. apply NE. eauto.
      * replace (i =? j) with false; [reflexivity|]. symmetry. apply Nat.eqb_neq. intros ->.
        assert (k = s) by eauto. congruence.
    + rewrite IH by auto. destruct (p s) eqn:Ps; [|reflexivity]. destruct (last_given s ks ws); [reflexivity|].
      destruct (eq_dec k s); [congruence | reflexivity].
Qed.

(** ** The invariant *)

Record Inv (m : kv V R) (free : nat) (f : pystr -> option V) : Prop := {
  I_len : length (vectors m) = length (index_to_key m);
  I_ix : forall k i, dget (key_to_index m) k = Some i -> nth_error (index_to_key m) i = Some (Some k);
  I_f : forall s, f s = match dget (key_to_index m) (KStr s) with Some i => nth_error (vectors m) i | None => None end;
  I_free : forall j, nth_error (index_to_key m) j = Some None <-> next_index m <= j < next_index m + free }.
Definition Aligned (m : kv V R) : Prop :=
  forall k i, nth_error (index_to_key m) i = Some (Some k) -> dget (key_to_index m) k = Some i.

Lemma Inv_range : forall m free f k i, Inv m free f -> dget (key_to_index m) k = Some i -> i < length (vectors m).
Proof. intros. rewrite (I_len _ _ _ H). apply nth_error_Some. rewrite (I_ix _ _ _ H _ _ H0). discriminate. Qed.

Lemma Inv_known : forall m free f s, Inv m free f -> dmem (key_to_index m) (KStr s) = match f s with Some _ => true | None => false end.
Proof.
  intros m free f s I. rewrite (I_f _ _ _ I). unfold dmem. destruct (dget (key_to_index m) (KStr s)) as [i|] eqn:E; [|reflexivity].
  pose proof (Inv_range _ _ _ _ _ I E) as L. apply nth_error_Some in L. destruct (nth_error (vectors m) i); congruence.
Qed.

Lemma Inv_inj : forall m free f k k' i, Inv m free f -> dget (key_to_index m) k = Some i -> dget (key_to_index m) k' = Some i -> k = k'.
Proof. intros. pose proof (I_ix _ _ _ H _ _ H0). pose proof (I_ix _ _ _ H _ _ H1). congruence. Qed.

Lemma Inv_new : forall zero count, Inv (kv_new zero count) count (fun _ => None).
Proof.
  intros zero count. constructor; cbn; intros.
  - rewrite !repeat_length. reflexivity.
  - discriminate.
  - reflexivity.
  - split; intros H.
    + assert (L : j < length (repeat (@None key) count)) by (apply nth_error_Some; congruence). rewrite repeat_length in L. lia.
    + rewrite nth_error_repeat by lia. reflexivity.
Qed.

Definition same_store (m m' : kv V R) : Prop :=
  index_to_key m' = index_to_key m /\ next_index m' = next_index m /\ key_to_index m' = key_to_index m /\ vectors m' = vectors m.
Lemma Inv_same : forall m m' free f, same_store m m' -> Inv m free f -> Inv m' free f.
Proof. intros m m' free f (A & B & C & D) [a b c d]. constructor; rewrite ?A, ?B, ?C, ?D; auto. Qed.
Lemma Aligned_same : forall m m', same_store m m' -> Aligned m -> Aligned m'.
Proof. intros m m' (A & B & C & D) H. unfold Aligned. rewrite A, C. auto. Qed.

Lemma Inv_set_next : forall m m' f, index_to_key m' = index_to_key m -> key_to_index m' = key_to_index m -> vectors m' = vectors m ->
  Inv m 0 f -> Inv m' 0 f.
Proof.
  intros m m' f A C D [a b c d]. constructor; rewrite ?A, ?C, ?D; auto.
  intros j. specialize (d j). split; [intros H; apply d in H; lia | lia].
Qed.

Lemma Inv_ext : forall m free f g, (forall s, f s = g s) -> Inv m free f -> Inv m free g.
Proof. intros m free f g E [a b c d]. constructor; auto. intros s. rewrite <- E. auto. Qed.

Lemma add_vectors_ok : forall m free f ks vs replace, Inv m free f -> length vs = length ks ->
  let r := add_vectors m (map KStr ks) vs [] replace in
  fst r = Ok tt /\ Inv (snd r) free (fun s => after_batch (f s) (last_given s ks vs) replace) /\
  norms (snd r) = norms m /\ counts (snd r) = counts m /\ next_index (snd r) = next_index m /\
  index_to_key (snd r) = index_to_key m ++ map Some (map KStr (filter (fun s => match f s with None => true | Some _ => false end) ks)) /\
  (forall s, dget (key_to_index (snd r)) (KStr s) =
     match last_index s (filter (fun s => match f s with None => true | Some _ => false end) ks) with
     | Some j => Some (kv_len m + j) | None => dget (key_to_index m) (KStr s) end) /\
  (Aligned m -> NoDup (filter (fun s => match f s with None => true | Some _ => false end) ks) -> Aligned (snd r)).
Proof.
  intros m free f ks vs replace I L r.
  set (p := fun s => dmem (key_to_index m) (KStr s)).
  assert (Pf : forall s, p s = match f s with Some _ => true | None => false end) by (intros; apply (Inv_known _ _ _ _ I)).
  assert (Em : map (has_index_for m) (map KStr ks) = map p ks).
  { rewrite map_map. apply map_ext. intros s. apply has_index_str. }
  set (new := pick (map negb (map p ks)) ks).
  assert (En : new = filter (fun s => match f s with None => true | Some _ => false end) ks).
  { unfold new. rewrite map_map, pick_filter. apply filter_ext. intros s. rewrite Pf. destruct (f s); reflexivity. }
  assert (Er : r = add_vectors m (map KStr ks) vs [] replace) by reflexivity. clearbody r. unfold add_vectors in Er. cbv zeta in Er.
  rewrite Em, !pick_map in Er. fold new in Er.
  assert (Lb : (length vs =? length (map KStr ks)) = true) by (rewrite map_length; lia).
  rewrite Lb in Er. cbn [negb] in Er.
  set (m1 := fold_left add_key (map KStr new) m) in *.
  destruct (add_keys_fields (map KStr new) m) as (F1 & F2 & F3 & F4 & F5). fold m1 in F1, F2, F3, F4, F5.
  rewrite F3 in Er.
  set (wn := pick (map negb (map p ks)) vs) in *.
  set (m2 := set_vectors m1 (vectors m ++ wn)) in *.
  assert (Lw : length wn = length new).
  { unfold wn, new. clear - L. revert vs L. induction ks as [|k ks IH]; intros [|w vs] L; cbn in *; try discriminate; [reflexivity|].
    injection L as L. destruct (negb (p k)); cbn; rewrite (IH _ L); reflexivity. }
  assert (G2 : forall k, dget (key_to_index m2) k =
     match last_index k (map KStr new) with Some j => Some (kv_len m + j) | None => dget (key_to_index m) k end).
  { intros k. apply (add_keys_dget (map KStr new) m k). }
  assert (Gs : forall s, dget (key_to_index m2) (KStr s) =
     match last_index s new with Some j => Some (kv_len m + j) | None => dget (key_to_index m) (KStr s) end).
  { intros s. rewrite G2, (last_index_map KStr KStr_inj). reflexivity. }
  assert (Known : forall s, p s = true -> last_index s new = None) by (intros s Ps; apply last_index_filter_false; auto).
  assert (I2 : Inv m2 free (fun s => after_batch (f s) (last_given s ks vs) false)).
  { constructor.
    - unfold m2. cbn [set_vectors vectors index_to_key]. rewrite F1, !app_length, !map_length, (I_len _ _ _ I). lia.
    - intros k i E. rewrite G2 in E. unfold m2. cbn [set_vectors index_to_key]. rewrite F1.
      destruct (last_index k (map KStr new)) as [j|] eqn:Ej.
      + injection E as <-. unfold kv_len. rewrite nth_error_app2 by lia.
        replace (_ + j - _) with j by lia. rewrite nth_error_map, (last_index_nth _ _ _ Ej). reflexivity.
      + pose proof (I_ix _ _ _ I _ _ E) as X. rewrite nth_error_app1; [exact X|]. apply nth_error_Some. congruence.
    - intros s. rewrite Gs. unfold m2. cbn [set_vectors vectors].
      destruct (p s) eqn:Ps.
      + rewrite (Known s Ps). rewrite Pf in Ps. pose proof (I_f _ _ _ I s) as Fs. destruct (f s) as [v|] eqn:E; [|discriminate].
        cbn [after_batch]. destruct (dget (key_to_index m) (KStr s)) as [i|] eqn:Ei; [|discriminate].
        rewrite nth_error_app1 by (apply (Inv_range _ _ _ _ _ I Ei)). rewrite <- Fs. destruct (last_given s ks vs); reflexivity.
      + pose proof (last_new p s ks vs L Ps) as X. fold new wn in X. rewrite Pf in Ps. destruct (f s) as [v|] eqn:E; [discriminate|].
        cbn [after_batch]. rewrite <- X. destruct (last_index s new) as [j|] eqn:Ej.
        * unfold kv_len. rewrite <- (I_len _ _ _ I). rewrite nth_error_app2 by lia. f_equal. lia.
        * destruct (dget (key_to_index m) (KStr s)) as [i|] eqn:Ei; [|reflexivity].
          pose proof (I_f _ _ _ I s) as Fs. rewrite E, Ei in Fs. pose proof (Inv_range _ _ _ _ _ I Ei) as Lr.
          apply nth_error_Some in Lr. congruence.
    - intros j. unfold m2. cbn [set_vectors index_to_key next_index]. rewrite F1, F2, <- (I_free _ _ _ I).
      destruct (Nat.lt_ge_cases j (length (index_to_key m))) as [Lj|Lj].
      + rewrite nth_error_app1 by exact Lj. reflexivity.
      + rewrite nth_error_app2 by exact Lj. rewrite nth_error_map. split.
        * destruct (nth_error (map KStr new) _); discriminate.
        * intros X. assert (j < length (index_to_key m)) by (apply nth_error_Some; congruence). lia. }
  assert (A2 : Aligned m -> NoDup new -> Aligned m2).
  { intros A ND k i E. unfold m2 in E. cbn [set_vectors index_to_key] in E. rewrite F1 in E. rewrite G2.
    destruct (Nat.lt_ge_cases i (length (index_to_key m))) as [Li|Li].
    - rewrite nth_error_app1 in E by exact Li. apply A in E. destruct (last_index k (map KStr new)) as [j|] eqn:Ej; [|exact E].
      exfalso. apply last_index_nth, nth_error_In, in_map_iff in Ej. destruct Ej as (s & <- & Hs).
      assert (Ps : p s = true) by (unfold p, dmem; rewrite E; reflexivity).
      pose proof (Known s Ps) as X. apply last_index_none in X. contradiction.
    - rewrite nth_error_app2 in E by exact Li. rewrite nth_error_map in E.
      destruct (nth_error (map KStr new) _) as [k'|] eqn:En'; [|discriminate]. injection E as ->.
      rewrite (last_index_NoDup _ _ _ (FinFun.Injective_map_NoDup KStr_inj ND) En'). f_equal. unfold kv_len. lia. }
  assert (Common : norms m2 = norms m /\ counts m2 = counts m /\ next_index m2 = next_index m /\
    index_to_key m2 = index_to_key m ++ map Some (map KStr new)).
  { unfold m2. cbn [set_vectors norms counts next_index index_to_key]. auto. }
  destruct Common as (C1 & C2 & C3 & C4). rewrite <- En.
  destruct replace.
  - set (idxs := known_indices m2 (map KStr (pick (map p ks) ks))) in *.
    assert (Rng : forallb (fun i => i <? length (vectors m2)) idxs = true).
    { apply forallb_forall. intros i Hi. unfold idxs in Hi. clear - I2 Hi. induction (pick (map p ks) ks) as [|s l IH]; [destruct Hi|].
      cbn [map known_indices] in Hi. rewrite get_index_str in Hi. destruct (dget (key_to_index m2) (KStr s)) as [j|] eqn:E.
      - destruct Hi as [<-|Hi]; [|auto]. pose proof (Inv_range _ _ _ _ _ I2 E). lia.
      - auto. }
    rewrite Rng in Er. subst r. cbn [fst snd set_vectors norms counts next_index index_to_key].
    split; [reflexivity|]. split; [|auto 10].
    constructor; cbn [set_vectors vectors index_to_key key_to_index next_index].
    + rewrite assign_length. apply (I_len _ _ _ I2).
    + apply (I_ix _ _ _ I2).
    + intros s. destruct (dget (key_to_index m2) (KStr s)) as [i|] eqn:Ei.
      * assert (X := assign_spec p (fun s => dget (key_to_index m2) (KStr s)) m2 s i (get_index_str m2)).
        assert (Y : forall a b j, dget (key_to_index m2) (KStr a) = Some j -> dget (key_to_index m2) (KStr b) = Some j -> a = b)
          by (intros a b j Ea Eb; apply KStr_inj; exact (Inv_inj _ _ _ _ _ _ I2 Ea Eb)).
        assert (Z : forall a, p a = true -> dget (key_to_index m2) (KStr a) <> None).
        { intros a Pa. rewrite Gs, (Known a Pa). unfold p, dmem in Pa. destruct (dget (key_to_index m) (KStr a)); [discriminate | discriminate Pa]. }
        specialize (X Y Z Ei ks vs (vectors m2) L (Inv_range _ _ _ _ _ I2 Ei)). fold idxs in X. rewrite X. clear X.
        pose proof (I_f _ _ _ I2 s) as Fs. rewrite Ei in Fs. rewrite <- Fs, Pf.
        destruct (f s) as [v|]; cbn [after_batch]; destruct (last_given s ks vs); reflexivity.
      * pose proof (I_f _ _ _ I2 s) as Fs. rewrite Ei in Fs. destruct (f s); cbn [after_batch] in *; destruct (last_given s ks vs); congruence.
    + apply (I_free _ _ _ I2).
  - subst r. cbn [fst snd]. split; [reflexivity|]. split; [exact I2|]. auto 10.
Qed.

Lemma same_alloc_next : forall m n, index_to_key (set_next (allocate m) n) = index_to_key m /\
  key_to_index (set_next (allocate m) n) = key_to_index m /\ vectors (set_next (allocate m) n) = vectors m /\
  norms (set_next (allocate m) n) = norms m.
Proof. intros; repeat split. Qed.

Lemma add_vector_ok : forall m free f k v, Inv m free f ->
  let r := add_vector m (KStr k) v in
  exists i, fst r = Ok i /\ Inv (snd r) (fst (step (free, f) (AddOne k v))) (snd (step (free, f) (AddOne k v))) /\
  norms (snd r) = norms m /\
  (Aligned m -> free = 0 \/ f k = None -> Aligned (snd r)) /\
  (0 < free \/ f k = None -> nth_error (index_to_key (snd r)) i = Some (Some (KStr k)) /\ nth_error (vectors (snd r)) i = Some v).
Proof.
  intros m free f k v I r.
  assert (Er : r = add_vector m (KStr k) v) by reflexivity. clearbody r. unfold add_vector in Er. cbv zeta in Er. destruct free as [|free].
  - assert (N : nth_error (index_to_key m) (next_index m) <> Some None) by (rewrite (I_free _ _ _ I); lia).
    assert (E : r = match add_vectors m [KStr k] [v] [] false with
                    | (Err e, m1) => (Err e, m1)
                    | (Ok _, m1) => (Ok (kv_len m), set_next (allocate m1) (S (kv_len m)))
                    end).
    { rewrite Er. destruct (nth_error (index_to_key m) (next_index m)) as [[x|]|]; congruence. }
    clear Er. subst r.
    destruct (add_vectors_ok m 0 f [k] [v] false I eq_refl) as (E1 & I1 & N1 & C1 & X1 & K1 & G1 & A1). cbn [map] in *.
    destruct (add_vectors m [KStr k] [v] [] false) as [r1 m1]. cbn [fst snd] in *. subst r1.
    destruct (same_alloc_next m1 (S (kv_len m))) as (S1 & S2 & S3 & S4).
    exists (kv_len m). cbn [fst snd]. split; [reflexivity|]. split.
    { cbn [step fst snd]. apply (Inv_set_next m1); auto. }
    split; [rewrite S4; exact N1|]. split.
    { intros A _. unfold Aligned. rewrite S1, S2. apply A1; auto. cbn [filter]. destruct (f k); repeat constructor; simpl; tauto. }
    intros [H|H]; [lia|]. rewrite S1, S3, K1. cbn [filter]. rewrite H. cbn [map]. unfold kv_len.
    rewrite nth_error_app2, Nat.sub_diag by lia. split; [reflexivity|].
    pose proof (I_f _ _ _ I1 k) as Fk. rewrite G1 in Fk. cbn [filter] in Fk. cbv beta in Fk. rewrite H in Fk.
    cbn [after_batch last_given last_index] in Fk. destruct (eq_dec k k); [|congruence]. rewrite Nat.add_0_r in Fk. symmetry. exact Fk.
  - assert (N : nth_error (index_to_key m) (next_index m) = Some None) by (apply (I_free _ _ _ I); lia).
    rewrite N in Er. assert (L : next_index m < length (vectors m)).
    { rewrite (I_len _ _ _ I). apply nth_error_Some. congruence. }
    assert (Lb : (next_index m <? length (vectors m)) = true) by lia. rewrite Lb in Er. subst r. cbn [fst snd].
    exists (next_index m). split; [reflexivity|].
    assert (Li : next_index m < length (index_to_key m)) by (rewrite <- (I_len _ _ _ I); exact L).
    split; [|split; [reflexivity|split]].
    + constructor; cbn [set_next set_vectors index_to_key next_index key_to_index vectors step fst snd].
      * rewrite !set_nth_length. apply (I_len _ _ _ I).
      * intros k' i E. rewrite dget_dset in E. rewrite nth_error_set_nth. destruct (eq_dec (KStr k) k') as [<-|NE].
        -- injection E as <-. replace (_ && _) with true by lia. reflexivity.
        -- pose proof (I_ix _ _ _ I _ _ E) as X. replace (i =? next_index m) with false; [exact X|]. symmetry. apply Nat.eqb_neq. congruence.
      * intros s. rewrite dget_dset. destruct (eq_dec s k) as [->|NE].
        -- destruct (eq_dec (KStr k) (KStr k)); [|congruence]. rewrite nth_error_set_nth. replace (_ && _) with true by lia. reflexivity.
        -- destruct (eq_dec (KStr k) (KStr s)); [congruence|]. rewrite (I_f _ _ _ I).
           destruct (dget (key_to_index m) (KStr s)) as [i|] eqn:E; [|reflexivity]. rewrite nth_error_set_nth.
           pose proof (I_ix _ _ _ I _ _ E) as X. replace (i =? next_index m) with false; [reflexivity|]. symmetry. apply Nat.eqb_neq. congruence.
      * intros j. rewrite nth_error_set_nth. pose proof (I_free _ _ _ I j) as X. destruct (j =? next_index m) eqn:Ej.
        -- replace (_ && _) with true by lia. split; [discriminate | lia].
        -- cbn [andb]. rewrite X. lia.
    + intros A [H|H]; [discriminate|]. intros k' i E. cbn [set_next set_vectors index_to_key key_to_index] in *.
      rewrite nth_error_set_nth in E. rewrite dget_dset. destruct (i =? next_index m) eqn:Ei.
      * replace (_ && _) with true in E by lia. injection E as <-. destruct (eq_dec (KStr k) (KStr k)); [|congruence]. f_equal. lia.
      * cbn [andb] in E. apply A in E. destruct (eq_dec (KStr k) k') as [<-|NE]; [|exact E].
        exfalso. pose proof (Inv_known _ _ _ k I) as X. unfold dmem in X. rewrite E, H in X. discriminate.
    + intros _. cbn [set_next set_vectors index_to_key vectors]. rewrite !nth_error_set_nth.
      replace (_ && _) with true by lia. replace (_ && _) with true by lia. auto.
Qed.

(** ** Histories *)

Variable zero : V.
Variable norm : V -> R.
Variable divide : V -> R -> V.

Lemma fill_norms_same : forall m force, same_store m (fill_norms norm m force).
Proof. intros. unfold fill_norms. destruct (norms m); [destruct force|]; repeat split. Qed.
Lemma normed_same : forall m k, same_store m (snd (get_vector norm divide m k true)).
Proof.
  intros. unfold get_vector. destruct (get_index m k); [|repeat split].
  destruct (nth_error _ _); [destruct (nth_error _ _)|]; cbn [snd]; apply fill_norms_same.
Qed.

Definition cache_ok (c : cache) m : Prop :=
  match c with
  | NotComputed => norms m = None
  | Current => norms m = None \/ norms m = Some (map norm (vectors m))
  | Stale => True
  end.

Lemma run_op_ok : forall o m free f c, Inv m free f -> well_shaped o -> cache_ok c m ->
  let m' := run_op norm divide m o in
  Inv m' (fst (step (free, f) o)) (snd (step (free, f) o)) /\ cache_ok (cache_step c o) m' /\ (Aligned m -> tidy_op (free, f) o -> Aligned m').
Proof.
  intros o m free f c I W C m'.
  assert (Adds : forall c', norms m' = norms m -> c' = match c with NotComputed => NotComputed | _ => Stale end -> cache_ok c' m').
  { intros c' E ->. destruct c; cbn in *; auto. congruence. }
  destruct o as [k v | ks vs replace | ks vs | k | force]; cbn [run_op step fst snd well_shaped] in *.
  - destruct (add_vector_ok m free f k v I) as (i & _ & I1 & N1 & A1 & _). fold m' in I1, N1, A1.
    split; [exact I1|]. split; [apply Adds; auto; destruct c; reflexivity | exact A1].
  - destruct (add_vectors_ok m free f ks vs replace I W) as (_ & I1 & N1 & _ & _ & _ & _ & A1). fold m' in I1, N1, A1.
    split; [exact I1|]. split; [apply Adds; auto; destruct c; reflexivity | exact A1].
  - destruct (add_vectors_ok m free f ks vs true I W) as (_ & I1 & N1 & _ & _ & _ & _ & A1). fold m' in I1, N1, A1.
    split; [exact I1|]. split; [apply Adds; auto; destruct c; reflexivity | exact A1].
  - pose proof (normed_same m (KStr k)) as S. fold m' in S. split; [apply (Inv_same m); auto|].
    split; [|intros A _; apply (Aligned_same m); auto].
    assert (X : norms m' = norms m \/ (norms m = None /\ norms m' = Some (map norm (vectors m)))).
    { unfold m', get_vector. destruct (get_index m (KStr k)); [|auto]. unfold fill_norms.
      destruct (norms m) eqn:E; destruct (nth_error _ _); try destruct (nth_error _ _); cbn; auto. }
    destruct S as (_ & _ & _ & Ev). destruct c; cbn in *; rewrite ?Ev; auto.
    + destruct X as [X|[_ X]]; rewrite X; auto.
    + destruct X as [X|[Y X]]; rewrite X; auto.
  - pose proof (fill_norms_same m force) as S. fold m' in S. split; [apply (Inv_same m); auto|].
    split; [|intros A _; apply (Aligned_same m); auto].
    destruct S as (_ & _ & _ & Ev).
    assert (X : norms m' = match norms m with Some n => if force then Some (map norm (vectors m)) else Some n | None => Some (map norm (vectors m)) end).
    { unfold m', fill_norms. destruct (norms m) as [l|] eqn:En; [destruct force; cbn; auto | reflexivity]. }
    destruct force, c; cbn in *; rewrite ?Ev, ?X; auto.
    + destruct (norms m); auto.
    + destruct (norms m); auto.
    + destruct (norms m); auto.
    + rewrite C. auto.
    + destruct C as [-> | ->]; auto.
Qed.

Lemma run_from_ok : forall ops m free f c, Inv m free f -> Forall well_shaped ops -> cache_ok c m ->
  let m' := fold_left (run_op norm divide) ops m in
  Inv m' (fst (fold_left step ops (free, f))) (snd (fold_left step ops (free, f))) /\ cache_ok (fold_left cache_step ops c) m' /\ (Aligned m -> tidy_from (free, f) ops -> Aligned m').
Proof.
  induction ops as [|o ops IH]; intros m free f c I W C; cbn [fold_left tidy_from].
  - cbn. auto.
  - inversion W; subst. destruct (run_op_ok o m free f c I H1 C) as (I1 & C1 & A1).
    destruct (step (free, f) o) as [free' f'] eqn:E. cbn [fst snd] in I1.
    destruct (IH _ free' f' _ I1 H2 C1) as (I2 & C2 & A2). split; [exact I2|]. split; [exact C2|].
    intros A [T1 T2]. apply A2; auto.
Qed.

Lemma run_ok : forall count ops, Forall well_shaped ops ->
  let m := run zero norm divide count ops in
  Inv m (fst (content count ops)) (snd (content count ops)) /\ cache_ok (cache_of ops) m /\ (tidy count ops -> Aligned m).
Proof.
  intros count ops W. destruct (run_from_ok ops (kv_new zero count) count (fun _ => None) NotComputed (Inv_new zero count) W eq_refl)
    as (I & C & A).
  split; [exact I|]. split; [exact C|]. intros T. apply A; auto.
  intros k i E. exfalso. cbn [kv_new index_to_key] in E. assert (L : i < count).
  { rewrite <- (repeat_length (@None key) count). apply nth_error_Some. congruence. }
  rewrite nth_error_repeat in E by exact L. discriminate.
Qed.

Lemma get_vector_fresh : forall m k, cache_ok Current m ->
  fst (get_vector norm divide m k true) = rmap (fun v => divide v (norm v)) (fst (get_vector norm divide m k false)).
Proof.
  intros m k C. unfold get_vector. destruct (get_index m k) as [i|]; [|reflexivity]. cbn [fst].
  assert (E : the_norms (fill_norms norm m false) = map norm (vectors m)).
  { unfold the_norms, fill_norms. destruct C as [C|C]; rewrite C; [reflexivity|]. rewrite C. reflexivity. }
  destruct (fill_norms_same m false) as (_ & _ & _ & Ev). rewrite E, Ev, nth_error_map.
  destruct (nth_error (vectors m) i); reflexivity.
Qed.
End KVP.
