(** Proofs about the vocabulary and the negative samples of Poincaré models. *)
From Coq Require Import ZifyBool ZifyNat.
From Verif Require Import Base KeyedVectors_Model KeyedVectors_Proofs PoincareGeo_Model PoincareVocab_Model.

(** ** Vocabulary *)
Record wf {K V} `{EqDec K} (s : model K V) : Prop := {
  w_keys : NoDup (keys s);
  w_index : forall x i, dget (index s) x = Some i <-> nth_error (keys s) i = Some x;
  w_counts : match counts s with None => keys s = [] | Some cs => length cs = length (keys s) end;
  w_ones : Forall (fun c => 1 <= c)%Z (match counts s with None => [] | Some cs => cs end);
  w_rels : Forall (fun p => fst p < length (keys s) /\ snd p < length (keys s)) (rels s);
  w_nrels : forall i j, In j (dget_or (nrels s) i []) <-> In (i, j) (rels s);
  w_sets : forall i, NoDup (dget_or (nrels s) i [])
}.
(** The count of a node (0 if there is no such node). *)
Definition count_of {K V} `{EqDec K} (s : model K V) (x : K) : Z :=
  match dget (index s) x, counts s with Some i, Some cs => nth i cs 0%Z | _, _ => 0%Z end.

Lemma allocate_same : forall cs n, length cs = n -> allocate n (Some cs) = cs.
Proof. intros cs n <-. unfold allocate. rewrite firstn_all, Nat.sub_diag. apply app_nil_r. Qed.
Lemma allocate_one : forall cs n, match cs with None => n = 0 | Some l => length l = n end -> allocate (S n) cs = match cs with None => [] | Some l => l end ++ [0%Z].
Proof.
  intros [l|] n H; [|subst; reflexivity]. unfold allocate. subst n. rewrite firstn_all2 by lia. replace (S (length l) - length l) with 1 by lia. reflexivity.
Qed.
Lemma set_nth_end : forall {A} (l : list A) x y, set_nth (l ++ [x]) (length l) y = l ++ [y].
Proof. intros A l x y. induction l as [|a l IH]; [reflexivity|]. cbn [app length set_nth]. rewrite IH. reflexivity. Qed.
Lemma nth_set_nth : forall (l : list Z) i x j, i < length l -> nth j (set_nth l i x) 0%Z = if j =? i then x else nth j l 0%Z.
Proof.
  induction l as [|a l IH]; intros i x j H; [cbn in H; lia|]. destruct i as [|i], j as [|j]; cbn [set_nth nth Nat.eqb]; try reflexivity. apply IH. cbn in H. lia.
Qed.
Lemma Forall_set_nth : forall {A} (P : A -> Prop) (l : list A) i x, Forall P l -> P x -> Forall P (set_nth l i x).
Proof. intros A P. induction l as [|a l IH]; intros i x F Hx; [exact F|]. inversion F; subst. destruct i; cbn [set_nth]; constructor; auto. Qed.
Lemma add_item_ok : forall {K V} `{EqDec K} (s : model K V) x, wf s -> exists s', add_item s x = Ok s' /\ wf s' /\ counts s' <> None /\
  keys s' = (if memb x (keys s) then keys s else keys s ++ [x]) /\ rels s' = rels s /\ nrels s' = nrels s /\ vectors s' = vectors s /\ cumsum s' = cumsum s /\
  In x (keys s') /\ forall y, count_of s' y = (count_of s y + if eqb x y then 1 else 0)%Z.
Proof.
  intros K V E s x W. destruct W as [W1 W2 W3 W0 W4 W5 W6]. unfold add_item. destruct (dget (index s) x) as [i|] eqn:D.
  - assert (Nx : nth_error (keys s) i = Some x) by (now apply W2). assert (Ix : In x (keys s)) by (eapply nth_error_In; eassumption).
    assert (Li : i < length (keys s)) by (apply nth_error_Some; congruence). destruct (counts s) as [cs|] eqn:C; [|rewrite W3 in Li; cbn in Li; lia].
    cbn [of_option rbind]. destruct (nth_error cs i) as [c|] eqn:Nc; [|apply nth_error_None in Nc; lia]. cbn [of_option rbind]. eexists. split; [reflexivity|]. cbn [keys index counts vectors rels nrels cumsum].
    rewrite allocate_same by exact W3. split; [split; cbn [keys index counts vectors rels nrels cumsum]; try assumption; [rewrite set_nth_length; exact W3 | apply Forall_set_nth; [exact W0|]; apply nth_error_In in Nc; rewrite Forall_forall in W0; specialize (W0 c Nc); lia]|]. split; [discriminate|].
    rewrite (proj2 (memb_true x (keys s)) Ix). repeat (split; [reflexivity|]). split; [exact Ix|]. intros y. unfold count_of. cbn [index counts]. rewrite C. destruct (eq_dec x y) as [<-|Ny].
    + rewrite eqb_refl, D, nth_set_nth, Nat.eqb_refl by lia. apply (nth_error_nth _ _ 0%Z) in Nc. rewrite Nc. reflexivity.
    + rewrite (proj2 (eqb_false x y) Ny). destruct (dget (index s) y) as [j|] eqn:Dy; [|reflexivity]. rewrite nth_set_nth by lia. destruct (Nat.eqb_spec j i) as [->|_]; [apply W2 in Dy; congruence | lia].
  - assert (Nx : ~ In x (keys s)) by (intros Hx; apply In_nth_error in Hx; destruct Hx as [i Hi]; apply W2 in Hi; congruence).
    assert (A : allocate (S (length (keys s))) (counts s) = match counts s with None => [] | Some l => l end ++ [0%Z]).
    { apply allocate_one. destruct (counts s); [exact W3 | rewrite W3; reflexivity]. }
    assert (LA : length (match counts s with None => [] | Some l => l end) = length (keys s)) by (destruct (counts s); [exact W3 | rewrite W3; reflexivity]).
    eexists. split; [reflexivity|]. cbn [keys index counts vectors rels nrels cumsum]. rewrite A. set (cs := match counts s with None => [] | Some l => l end) in *. rewrite <- LA, set_nth_end.
    split; [|split; [discriminate|]].
    + split; cbn [keys index counts vectors rels nrels cumsum]; try assumption.
      * apply NoDup_app_one; assumption.
      * intros y i. rewrite dget_dset. destruct (eq_dec x y) as [<-|Ny].
        -- split; [intros Q; injection Q as <-; rewrite LA, nth_error_app2, Nat.sub_diag by lia; reflexivity|]. intros Q. f_equal. destruct (Nat.lt_trichotomy i (length (keys s))) as [Hi|[Hi|Hi]]; [|lia|].
           ++ rewrite nth_error_app1 in Q by exact Hi. apply nth_error_In in Q. contradiction.
           ++ assert (nth_error (keys s ++ [x]) i = None) by (apply nth_error_None; rewrite app_length; cbn; lia). congruence.
        -- rewrite W2. destruct (Nat.lt_ge_cases i (length (keys s))) as [Hi|Hi]; [rewrite nth_error_app1 by exact Hi; reflexivity|]. rewrite nth_error_app2 by exact Hi.
           assert (Q : nth_error (keys s) i = None) by (now apply nth_error_None). rewrite Q. destruct (i - length (keys s)) as [|k]; cbn [nth_error]; [split; congruence | destruct k; split; discriminate].
      * rewrite !app_length, LA. reflexivity.
      * apply Forall_app. split; [exact W0 | repeat constructor; lia].
      * eapply Forall_impl; [|exact W4]. intros p. rewrite app_length. cbn [length]. lia.
    + rewrite (proj2 (memb_false x (keys s)) Nx). repeat (split; [reflexivity|]). split; [apply in_app_iff; right; left; reflexivity|]. intros y. unfold count_of. cbn [index counts]. rewrite dget_dset. destruct (eq_dec x y) as [<-|Ny].
      * rewrite eqb_refl, D, app_nth2, Nat.sub_diag by lia. reflexivity.
      * rewrite (proj2 (eqb_false x y) Ny). destruct (dget (index s) y) as [j|] eqn:Dy; [|lia]. apply W2 in Dy. assert (j < length (keys s)) by (apply nth_error_Some; congruence). rewrite app_nth1 by lia.
        unfold cs. destruct (counts s) as [cs0|]; [lia|]. rewrite W3 in *. cbn in *. lia.
Qed.

(** Nodes in the order of their first occurrence. *)
Definition note {K} `{EqDec K} (ks : list K) (x : K) : list K := if memb x ks then ks else ks ++ [x].
Definition occ {K} `{EqDec K} (x : K) (l : list K) : Z := Z.of_nat (count_occ eq_dec l x).
Lemma occ_cons : forall {K} `{EqDec K} (y : K) x l, occ y (x :: l) = ((if eqb x y then 1 else 0) + occ y l)%Z.
Proof. intros K E y x l. unfold occ. cbn [count_occ]. unfold eqb. destruct (eq_dec x y); lia. Qed.
Lemma note_keeps : forall {K} `{EqDec K} (l ks : list K) i x, nth_error ks i = Some x -> nth_error (fold_left note l ks) i = Some x.
Proof.
  intros K E. induction l as [|y l IH]; intros ks i x Hx; [exact Hx|]. cbn [fold_left]. apply IH. unfold note. destruct (memb y ks); [exact Hx|]. rewrite nth_error_app1; [exact Hx|]. apply nth_error_Some. congruence.
Qed.
Definition pair_of {K} (ks : list K) (r : list K) (p : nat * nat) : Prop := exists a b, r = [a; b] /\ nth_error ks (fst p) = Some a /\ nth_error ks (snd p) = Some b.
Lemma add_relation_ok : forall {K V} `{EqDec K} (s : model K V) a b, wf s -> exists s' p, add_relation s [a; b] = (s', None) /\ wf s' /\ counts s' <> None /\
  keys s' = note (note (keys s) a) b /\ rels s' = rels s ++ [p] /\ pair_of (keys s') [a; b] p /\ vectors s' = vectors s /\ cumsum s' = cumsum s /\
  forall y, count_of s' y = (count_of s y + occ y [a; b])%Z.
Proof.
  intros K V E s a b W. destruct (add_item_ok s a W) as (s1 & A1 & W1 & _ & K1 & R1 & N1 & V1 & C1 & I1 & O1). destruct (add_item_ok s1 b W1) as (s2 & A2 & W2 & C2n & K2 & R2 & N2 & V2 & C2 & I2 & O2).
  unfold add_relation. rewrite A1, A2. assert (Ia : In a (keys s2)) by (rewrite K2; destruct (memb b (keys s1)); [exact I1 | apply in_app_iff; left; exact I1]).
  destruct (In_nth_error _ _ Ia) as [i Hi]. destruct (In_nth_error _ _ I2) as [j Hj]. pose proof (proj2 (w_index _ W2 a i) Hi) as Di. pose proof (proj2 (w_index _ W2 b j) Hj) as Dj. rewrite Di, Dj.
  eexists. exists (i, j). split; [reflexivity|]. cbn [keys index counts vectors rels nrels cumsum]. destruct W2 as [X1 X2 X3 X0 X4 X5 X6].
  split; [|split; [exact C2n|split; [rewrite K2, K1; reflexivity|split; [congruence|split; [exists a, b; auto|split; [congruence|split; [congruence|]]]]]]].
  - split; cbn [keys index counts vectors rels nrels cumsum]; try assumption.
    + apply Forall_app. split; [exact X4|]. constructor; [|constructor]. cbn [fst snd]. split; apply nth_error_Some; congruence.
    + intros i' j'. unfold dget_or at 1. rewrite dget_dset. destruct (eq_dec i i') as [<-|Ni].
      * rewrite in_app_iff, <- X5. unfold set_add. destruct (memb j (dget_or (nrels s2) i [])) eqn:M.
        -- apply memb_true in M. cbn [In]. split; [tauto|]. intros [Q|[Q|[]]]; [exact Q|]. injection Q as <-. exact M.
        -- rewrite in_app_iff. cbn [In]. split; intros [Q|[Q|[]]]; [left; exact Q | right; left; congruence | left; exact Q | right; left; congruence].
      * fold (dget_or (nrels s2) i' []). rewrite in_app_iff, X5. cbn [In]. split; [tauto|]. intros [Q|[Q|[]]]; [exact Q|]. congruence.
    + intros i'. unfold dget_or at 1. rewrite dget_dset. destruct (eq_dec i i') as [<-|Ni]; [|apply X6]. unfold set_add. destruct (memb j (dget_or (nrels s2) i [])) eqn:M; [apply X6|]. apply NoDup_app_one; [apply X6 | now apply memb_false].
  - intros y. unfold count_of at 1. cbn [index counts]. fold (count_of s2 y). rewrite O2, O1, !occ_cons. unfold occ. cbn. lia.
Qed.
Lemma add_relations_ok : forall {K V} `{EqDec K} rs (s : model K V), wf s -> Forall (fun r => length r = 2) rs -> exists s' ps, add_relations s rs = (s', None) /\ wf s' /\ (rs <> [] -> counts s' <> None) /\ (counts s <> None -> counts s' <> None) /\
  keys s' = fold_left note (concat rs) (keys s) /\ rels s' = rels s ++ ps /\ Forall2 (pair_of (keys s')) rs ps /\ vectors s' = vectors s /\
  forall y, count_of s' y = (count_of s y + occ y (concat rs))%Z.
Proof.
  intros K V E. induction rs as [|r rs IH]; intros s W F.
  - exists s, []. cbn [add_relations concat fold_left]. split; [reflexivity|]. split; [exact W|]. split; [congruence|]. split; [auto|]. split; [reflexivity|]. split; [symmetry; apply app_nil_r|]. split; [constructor|]. split; [reflexivity|]. intros y. unfold occ. cbn. lia.
  - inversion F as [|? ? L F']; subst. destruct r as [|a [|b [|]]]; try discriminate. destruct (add_relation_ok s a b W) as (s1 & p & A1 & W1 & C1 & K1 & R1 & P1 & V1 & _ & O1).
    destruct (IH s1 W1 F') as (s' & ps & A & W' & _ & C' & K' & R' & P' & V' & O'). exists s', (p :: ps). cbn [add_relations]. rewrite A1. split; [exact A|]. split; [exact W'|]. split; [intros _; auto|]. split; [intros _; auto|].
    cbn [concat app fold_left]. rewrite <- K1. split; [exact K'|]. split; [rewrite R', R1, <- app_assoc; reflexivity|]. split; [|split; [congruence|]].
    + constructor; [|exact P']. destruct P1 as (a' & b' & Eq & Pa & Pb). exists a', b'. split; [exact Eq|]. rewrite K'. split; apply note_keeps; assumption.
    + intros y. rewrite O', O1. rewrite !occ_cons. unfold occ at 1. cbn. lia.
Qed.

(** ** Draws *)
Definition zsum (cs : list Z) : Z := fold_right Z.add 0%Z cs.
(** The numbers [acc + 1 .. acc + t] *)
Definition after (acc t : Z) : list Z := map (fun k => (acc + 1 + Z.of_nat k)%Z) (seq 0 (Z.to_nat t)).
Lemma zsum_nonneg : forall cs, Forall (fun c => 0 <= c)%Z cs -> (0 <= zsum cs)%Z.
Proof. induction 1; cbn [zsum fold_right]; [lia|]. unfold zsum in *. lia. Qed.
Lemma after_app : forall acc c t, (0 <= c)%Z -> (0 <= t)%Z -> after acc (c + t) = after acc c ++ after (acc + c) t.
Proof.
  intros acc c t Hc Ht. unfold after. rewrite Z2Nat.inj_add, seq_app, map_app by assumption. f_equal.
  cbn [Nat.add]. generalize (Z.to_nat t). intros n. revert Hc. clear. intros Hc. apply (nth_ext _ _ 0%Z 0%Z); rewrite !map_length, !seq_length; [reflexivity|]. intros k Hk.
  rewrite !(nth_indep _ 0%Z (acc + 1 + Z.of_nat 0)%Z) by (rewrite map_length, seq_length; exact Hk).
  rewrite (map_nth (fun k => (acc + 1 + Z.of_nat k)%Z)). rewrite (nth_indep _ (acc + 1 + Z.of_nat 0)%Z (acc + c + 1 + Z.of_nat 0)%Z) by (rewrite map_length, seq_length; exact Hk).
  rewrite (map_nth (fun k => (acc + c + 1 + Z.of_nat k)%Z)). rewrite !seq_nth by exact Hk. lia.
Qed.
Lemma filter_all : forall {A} (f : A -> bool) l, (forall x, In x l -> f x = true) -> filter f l = l.
Proof. intros A f l F. induction l as [|x l IH]; [reflexivity|]. cbn [filter]. rewrite F by (left; reflexivity). f_equal. apply IH. intros y Hy. apply F. now right. Qed.
Lemma filter_none : forall {A} (f : A -> bool) l, (forall x, In x l -> f x = false) -> filter f l = [].
Proof. intros A f l F. induction l as [|x l IH]; [reflexivity|]. cbn [filter]. rewrite F by (left; reflexivity). apply IH. intros y Hy. apply F. now right. Qed.
Lemma after_in : forall acc t r, In r (after acc t) <-> (acc < r <= acc + t)%Z.
Proof.
  intros acc t r. unfold after. rewrite in_map_iff. split.
  - intros (k & <- & Hk). apply in_seq in Hk. lia.
  - intros Hr. exists (Z.to_nat (r - acc - 1)). split; [lia|]. apply in_seq. lia.
Qed.
Lemma ss_count : forall cs acc i, Forall (fun c => 0 <= c)%Z cs -> i < length cs ->
  length (filter (fun r => searchsorted (prefix_sums acc cs) r =? i) (after acc (zsum cs))) = Z.to_nat (nth i cs 0%Z).
Proof.
  induction cs as [|c cs IH]; intros acc i F Hi; [cbn in Hi; lia|]. inversion F as [|? ? Hc F']; subst. cbn [zsum fold_right]. fold (zsum cs). rewrite after_app by (try assumption; now apply zsum_nonneg). rewrite filter_app, app_length.
  cbn [prefix_sums]. destruct i as [|i].
  - rewrite filter_all, filter_none.
    + unfold after. rewrite map_length, seq_length. cbn. lia.
    + intros r Hr. apply after_in in Hr. cbn [searchsorted]. rewrite (proj2 (Z.leb_gt _ _)) by lia. reflexivity.
    + intros r Hr. apply after_in in Hr. cbn [searchsorted]. rewrite (proj2 (Z.leb_le _ _)) by lia. reflexivity.
  - rewrite (filter_none _ (after acc c)).
    + cbn [length Nat.add nth]. rewrite <- (IH (acc + c)%Z i F') by (cbn in Hi; lia). f_equal. apply filter_ext_in. intros r Hr. apply after_in in Hr. cbn [searchsorted]. rewrite (proj2 (Z.leb_gt _ _)) by lia. reflexivity.
    + intros r Hr. apply after_in in Hr. cbn [searchsorted]. rewrite (proj2 (Z.leb_le _ _)) by lia. reflexivity.
Qed.
Lemma ss_bound : forall cs acc r, (r <= acc + zsum cs)%Z -> (acc < r)%Z -> searchsorted (prefix_sums acc cs) r < length cs.
Proof.
  induction cs as [|c cs IH]; intros acc r H1 H2; [cbn in H1; lia|]. cbn [prefix_sums searchsorted length]. destruct (Z.leb_spec r (acc + c)); [lia|]. cbn [zsum fold_right] in H1. fold (zsum cs) in H1. specialize (IH (acc + c)%Z r). lia.
Qed.
Lemma ss_hit : forall cs acc i, Forall (fun c => 1 <= c)%Z cs -> i < length cs -> exists r, (acc < r <= acc + zsum cs)%Z /\ searchsorted (prefix_sums acc cs) r = i.
Proof.
  induction cs as [|c cs IH]; intros acc i F Hi; [cbn in Hi; lia|]. inversion F as [|? ? Hc F']; subst. cbn [zsum fold_right prefix_sums searchsorted]. fold (zsum cs).
  assert (0 <= zsum cs)%Z by (apply zsum_nonneg; eapply Forall_impl; [|exact F']; cbv beta; intros; lia). destruct i as [|i].
  - exists (acc + 1)%Z. split; [lia|]. rewrite (proj2 (Z.leb_le _ _)) by lia. reflexivity.
  - destruct (IH (acc + c)%Z i F') as (r & Hr & E); [cbn in Hi; lia|]. exists r. split; [lia|]. rewrite (proj2 (Z.leb_gt _ _)) by lia. rewrite E. reflexivity.
Qed.
Lemma nodup_full : forall (l : list nat), length l = length (nodup eq_dec l) -> NoDup l.
Proof.
  intros l. induction l as [|x l IH]; intros L; [constructor|]. cbn [nodup] in L. assert (Q : forall m : list nat, length (nodup eq_dec m) <= length m) by (clear; intros m; induction m as [|y m IHm]; [cbn; lia|]; cbn [nodup]; destruct (in_dec eq_dec y m); cbn [length]; lia).
  destruct (in_dec eq_dec x l) as [Hx|Hx]; [cbn [length] in L; specialize (Q l); lia|]. constructor; [exact Hx|]. apply IH. cbn [length] in L. lia.
Qed.
Lemma acceptable_iff : forall related l, acceptable related l = true <-> NoDup l /\ forall i, In i l -> ~ In i related.
Proof.
  intros related l. unfold acceptable. rewrite andb_true_iff, Nat.eqb_eq, forallb_forall. split; intros [A B].
  - split; [now apply nodup_full|]. intros i Hi. specialize (B i Hi). apply negb_true_iff, memb_false in B. exact B.
  - split; [rewrite nodup_fixed_point by exact A; reflexivity|]. intros i Hi. apply negb_true_iff, memb_false. auto.
Qed.
