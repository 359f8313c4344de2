(** Proofs about Huffman trees: building and reading them. *)

From Coq Require Import Permutation.
From Verif Require Import Base SortFacts Huffman_Model Huffman_Spec Huffman_Proofs.
From Coq Require Import ZifyBool ZifyNat.
Local Open Scope nat_scope.

Lemma NoDup_app_remove_l : forall {X} (l l' : list X), NoDup (l ++ l') -> NoDup l'.
Proof. induction l as [|x l IH]; intros l' H; [exact H|]. inversion H; subst. apply IH. assumption. Qed.
Lemma NoDup_app_remove_r : forall {X} (l l' : list X), NoDup (l ++ l') -> NoDup l.
Proof.
  induction l as [|x l IH]; intros l' H; [constructor|]. inversion H; subst. constructor; [|eapply IH; eassumption].
  intros Hx. apply H2. apply in_or_app. auto.
Qed.

(** ** Trees *)
Fixpoint ids (t : item) : list nat := match t with Leaf _ i => [i] | Node _ k l r => k :: ids l ++ ids r end.
Fixpoint subtree (t : item) (p : list bool) : option item :=
  match p, t with
  | [], _ => Some t
  | b :: p', Node _ _ l r => subtree (if b then r else l) p'
  | _ :: _, Leaf _ _ => None
  end.
Fixpoint leaves (t : item) : list (nat * (nat * list bool)) :=
  match t with
  | Leaf c i => [(i, (c, []))]
  | Node _ _ l r => map (fun e => (fst e, (fst (snd e), false :: snd (snd e)))) (leaves l) ++ map (fun e => (fst e, (fst (snd e), true :: snd (snd e)))) (leaves r)
  end.

Section Forest.
Variable counts : list nat.
Notation n := (length counts).
Fixpoint wf (t : item) : Prop :=
  match t with
  | Leaf c i => i < n /\ nth_error counts i = Some c
  | Node c k l r => c = count l + count r /\ n <= k /\ index l < k /\ index r < k /\ wf l /\ wf r
  end.

Lemma index_ids : forall t, In (index t) (ids t).
Proof. destruct t; left; reflexivity. Qed.
Lemma subtree_ids : forall p t x, subtree t p = Some x -> incl (ids x) (ids t).
Proof.
  induction p as [|b p IH]; intros t x H; cbn in H; [destruct t; injection H as <-; apply incl_refl|].
  destruct t as [|c k l r]; [discriminate|]. intros i Hi. specialize (IH _ _ H i Hi). cbn. right. apply in_or_app. destruct b; auto.
Qed.
Lemma ids_subtree : forall t i, In i (ids t) -> exists p x, subtree t p = Some x /\ index x = i.
Proof.
  induction t as [c j|c k l IHl r IHr]; intros i H; cbn in H.
  - destruct H as [<-|[]]. exists [], (Leaf c j). auto.
  - destruct H as [<-|H]; [exists [], (Node c k l r); auto|]. apply in_app_or in H.
    destruct H as [H|H]; [destruct (IHl i H) as (p & x & E1 & E2); exists (false :: p), x | destruct (IHr i H) as (p & x & E1 & E2); exists (true :: p), x]; auto.
Qed.
Lemma subtree_inj : forall t, NoDup (ids t) -> forall p q x y, subtree t p = Some x -> subtree t q = Some y -> index x = index y -> p = q.
Proof.
  induction t as [c j|c k l IHl r IHr]; intros N p q x y Hx Hy E.
  - destruct p as [|b p]; [|discriminate]. destruct q as [|b q]; [reflexivity | discriminate].
  - cbn [ids] in N. inversion N as [|? ? N1 N2]; subst. apply NoDup_app_remove_l in N2 as Nr. apply NoDup_app_remove_r in N2 as Nl.
    assert (Dis : forall i, In i (ids l) -> In i (ids r) -> False).
    { clear - N2. induction (ids l) as [|a m IH]; [intros i []|]. cbn in N2. inversion N2 as [|? ? Na Nb]; subst. intros i [<-|H]; [|apply (IH Nb i H)]. intros Hr. apply Na. apply in_or_app. auto. }
    destruct p as [|b p], q as [|b' q]; [reflexivity | | |]; cbn in Hx, Hy.
    + injection Hx as <-. exfalso. apply N1. cbn in E. rewrite E. apply in_or_app.
      destruct b'; [right | left]; apply (subtree_ids q _ _ Hy), index_ids.
    + injection Hy as <-. exfalso. apply N1. cbn in E. rewrite <- E. apply in_or_app.
      destruct b; [right | left]; apply (subtree_ids p _ _ Hx), index_ids.
    + destruct b, b'.
      * f_equal. apply (IHr Nr p q x y); assumption.
      * exfalso. apply (Dis (index x)); [rewrite E; apply (subtree_ids q _ _ Hy), index_ids | apply (subtree_ids p _ _ Hx), index_ids].
      * exfalso. apply (Dis (index x)); [apply (subtree_ids p _ _ Hx), index_ids | rewrite E; apply (subtree_ids q _ _ Hy), index_ids].
      * f_equal. apply (IHl Nl p q x y); assumption.
Qed.
Lemma subtree_wf : forall p t x, wf t -> subtree t p = Some x -> wf x.
Proof.
  induction p as [|b p IH]; intros t x W H; cbn in H; [destruct t; injection H as <-; exact W|].
  destruct t as [|c k l r]; [discriminate|]. destruct W as (_ & _ & _ & _ & Wl & Wr). destruct b; [apply (IH _ _ Wr H) | apply (IH _ _ Wl H)].
Qed.
Lemma subtree_app : forall p q t, subtree t (p ++ q) = match subtree t p with Some x => subtree x q | None => None end.
Proof.
  induction p as [|b p IH]; intros q t; cbn [app]; [destruct t, q; reflexivity|].
  destruct t; cbn [subtree]; [reflexivity | apply IH].
Qed.
Lemma subtree_nil : forall t, subtree t [] = Some t.
Proof. destruct t; reflexivity. Qed.

Lemma leaves_subtree : forall t i c p, In (i, (c, p)) (leaves t) <-> subtree t p = Some (Leaf c i).
Proof.
  induction t as [c0 j|c0 k l IHl r IHr]; intros i c p; cbn [leaves].
  - split; [intros [E|[]]; injection E as <- <- <-; reflexivity|]. destruct p; [|discriminate]. intros E; injection E as <- <-. left; reflexivity.
  - rewrite in_app_iff, !in_map_iff. split.
    + intros [((i' & c' & p') & E & H)|((i' & c' & p') & E & H)]; cbn in E; injection E as <- <- <-; [apply IHl in H | apply IHr in H]; exact H.
    + destruct p as [|b p]; [discriminate|]. cbn. intros H. destruct b; [right; apply IHr in H | left; apply IHl in H]; eexists; split; try eassumption; reflexivity.
Qed.
Lemma leaves_fst_nodup : forall t, NoDup (ids t) -> NoDup (map fst (leaves t)).
Proof.
  assert (G : forall t i, In i (map fst (leaves t)) -> In i (ids t)).
  { intros t i H. apply in_map_iff in H. destruct H as ((i' & c & p) & E & H). cbn in E. subst i'. apply leaves_subtree in H. apply (subtree_ids _ _ _ H). left; reflexivity. }
  induction t as [c j|c k l IHl r IHr]; intros N; cbn [leaves]; [repeat constructor; intros []|].
  cbn [ids] in N. inversion N as [|? ? N1 N2]; subst. rewrite map_app, !map_map. cbn [fst].
  change (map (fun x : nat * (nat * list bool) => fst x)) with (map (@fst nat (nat * list bool))).
  clear N N1. assert (X : forall l1 l2 l1' l2' : list nat, NoDup l1' -> NoDup l2' -> incl l1' l1 -> incl l2' l2 -> NoDup (l1 ++ l2) -> NoDup (l1' ++ l2')).
  { clear. intros l1 l2 l1' l2' H1 H2 I1 I2 N. induction l1' as [|a m IH]; [exact H2|]. cbn. inversion H1; subst. constructor.
    - intros H. apply in_app_or in H. destruct H as [H|H]; [contradiction|]. assert (Ha : In a l1) by (apply I1; left; reflexivity). apply I2 in H.
      apply in_split in Ha. destruct Ha as (u & v & ->). rewrite <- app_assoc in N. cbn in N. apply NoDup_remove_2 in N. apply N. apply in_or_app. right. apply in_or_app. auto.
    - apply IH; [assumption|]. intros x Hx. apply I1. right; exact Hx. }
  apply (X (ids l) (ids r)); [apply IHl; apply NoDup_app_remove_r in N2; exact N2 | apply IHr; apply NoDup_app_remove_l in N2; exact N2 | intros i; apply G | intros i; apply G | exact N2].
Qed.

(** Kraft sum and cost of a tree. *)
Lemma leaves_kraft : forall t M, Forall (fun l => l <= M) (map (fun e => length (snd (snd e))) (leaves t)) ->
  kraft M (map (fun e => length (snd (snd e))) (leaves t)) = 2 ^ M.
Proof.
  induction t as [c j|c k l IHl r IHr]; intros M H; cbn [leaves] in *.
  - unfold kraft. cbn [map snd length sum]. rewrite Nat.sub_0_r. lia.
  - rewrite map_app, !map_map in *. cbn [snd length] in *. apply Forall_app in H. destruct H as [Hl Hr].
    assert (X : forall (L : list (nat * (nat * list bool))) m, kraft (S m) (map (fun e => S (length (snd (snd e)))) L) = kraft m (map (fun e => length (snd (snd e))) L)).
    { clear. intros L m. unfold kraft. rewrite !map_map. reflexivity. }
    assert (Y : forall (L : list (nat * (nat * list bool))) m, Forall (fun l => l <= S m) (map (fun e => S (length (snd (snd e)))) L) -> Forall (fun l => l <= m) (map (fun e => length (snd (snd e))) L)).
    { clear. intros L m H. rewrite Forall_forall in *. intros x Hx. apply in_map_iff in Hx. destruct Hx as (e & <- & He). specialize (H (S (length (snd (snd e)))) ltac:(apply in_map_iff; exists e; auto)). lia. }
    destruct M as [|M].
    + exfalso. assert (Ne : leaves l <> []) by (clear; induction l as [|? ? a IHa b IHb]; cbn; [discriminate|]; destruct (leaves a); [congruence | discriminate]).
      destruct (leaves l) as [|e L]; [congruence|]. inversion Hl; subst. lia.
    + unfold kraft. rewrite map_app, sum_app. fold (kraft (S M) (map (fun e => S (length (snd (snd e)))) (leaves l))). fold (kraft (S M) (map (fun e => S (length (snd (snd e)))) (leaves r))).
      rewrite !X, IHl, IHr by (apply Y; assumption). cbn [Nat.pow]. lia.
Qed.
Definition tcost (t : item) : nat := sum (map (fun e => fst (snd e) * length (snd (snd e))) (leaves t)).
Lemma leaves_count : forall t, wf t -> sum (map (fun e => fst (snd e)) (leaves t)) = count t.
Proof.
  induction t as [c j|c k l IHl r IHr]; intros W; cbn [leaves]; [cbn; lia|]. destruct W as (E & _ & _ & _ & Wl & Wr).
  rewrite map_app, !map_map, sum_app. cbn [fst snd]. rewrite IHl, IHr by assumption. cbn. lia.
Qed.
Lemma tcost_node : forall c k l r, wf (Node c k l r) -> tcost (Node c k l r) = tcost l + tcost r + count l + count r.
Proof.
  intros c k l r W. destruct W as (E & _ & _ & _ & Wl & Wr). unfold tcost. cbn [leaves]. rewrite map_app, !map_map, sum_app. cbn [fst snd length].
  rewrite <- (leaves_count l Wl), <- (leaves_count r Wr).
  assert (X : forall L : list (nat * (nat * list bool)), sum (map (fun e => fst (snd e) * S (length (snd (snd e)))) L) =
      sum (map (fun e => fst (snd e) * length (snd (snd e))) L) + sum (map (fun e => fst (snd e)) L)).
  { induction L as [|e L IH]; [reflexivity|]. cbn [map sum]. rewrite IH. lia. }
  rewrite !X. lia.
Qed.

(** ** Building the tree *)
Definition fids (h : list item) : list nat := flat_map ids h.
Lemma fids_perm : forall h h', Permutation h h' -> Permutation (fids h) (fids h').
Proof. intros. apply Permutation_flat_map. assumption. Qed.

Lemma rounds_ok : forall Q (ok : list item -> Prop),
  (forall h x, ok h -> ok (heappush Q h x) /\ Permutation (heappush Q h x) (x :: h)) ->
  (forall h, ok h -> h <> [] -> exists x h', heappop Q h = Ok (x, h') /\ ok h' /\ Permutation h (x :: h') /\ Forall (fun y => count x <= count y) h') ->
  forall todo i h, ok h -> length h = S todo -> Forall wf h -> Permutation (fids h) (seq 0 (i + n)) ->
  exists root, merge_rounds Q n todo i h = Ok [root] /\ wf root /\ Permutation (ids root) (seq 0 (i + todo + n)) /\
    (0 < todo -> index root = i + todo - 1 + n) /\
    (forall ps, Permutation (map fst ps) (map count h) -> feasible ps -> tcost root <= sum (map tcost h) + weight_cost ps).
Proof.
  intros Q ok Push Pop. induction todo as [|todo IH]; intros i h O L W I.
  - destruct h as [|t [|? ?]]; try discriminate. exists t. split; [reflexivity|]. inversion W; subst. split; [assumption|].
    split; [unfold fids in I; cbn in I; rewrite app_nil_r in I; rewrite Nat.add_0_r; exact I|]. split; [lia|].
    intros ps _ _. cbn. lia.
  - cbn [merge_rounds]. destruct (Pop h O ltac:(destruct h; discriminate)) as (a & h1 & E1 & O1 & P1 & A1). rewrite E1. cbn [rbind].
    assert (L1 : length h1 = S todo) by (apply Permutation_length in P1; cbn in P1; lia).
    destruct (Pop h1 O1 ltac:(destruct h1; discriminate)) as (b & h2 & E2 & O2 & P2 & A2). rewrite E2. cbn [rbind].
    set (x := Node (count a + count b) (i + n) a b). destruct (Push h2 x O2) as [O3 P3].
    assert (Pab : Permutation h (a :: b :: h2)) by (rewrite P1, P2; reflexivity).
    assert (Wab : Forall wf (a :: b :: h2)) by (eapply Permutation_Forall; eassumption).
    assert (Iab : Permutation (fids (a :: b :: h2)) (seq 0 (i + n))) by (rewrite <- I; apply fids_perm; symmetry; exact Pab).
    inversion Wab as [|? ? Wa Wb']; subst. inversion Wb' as [|? ? Wb W2]; subst.
    assert (L2 : length h2 = todo) by (apply Permutation_length in P2; cbn in P2; lia).
    assert (Bd : forall y, In y (a :: b :: h2) -> index y < i + n).
    { intros y Hy. assert (Hi : In (index y) (fids (a :: b :: h2))) by (apply in_flat_map; exists y; split; [exact Hy | apply index_ids]).
      eapply Permutation_in in Hi; [|exact Iab]. apply in_seq in Hi. lia. }
    assert (Wx : wf x).
    { cbn. repeat split; try assumption; [lia | apply Bd; left; reflexivity | apply Bd; right; left; reflexivity]. }
    destruct (IH (S i) (heappush Q h2 x) O3) as (root & R1 & R2 & R3 & R4 & R5).
    + apply Permutation_length in P3. rewrite P3. cbn. congruence.
    + eapply Permutation_Forall; [symmetry; exact P3|]. constructor; assumption.
    + rewrite (fids_perm _ _ P3). cbn [fids flat_map ids x app]. change (flat_map ids h2) with (fids h2). cbn [Nat.add seq].
      change (0 :: seq 1 (i + n)) with (seq 0 (S (i + n))). rewrite <- (Nat.add_1_r (i + n)), seq_app. cbn [seq Nat.add].
      rewrite <- app_assoc. change (ids a ++ ids b ++ fids h2) with (fids (a :: b :: h2)). rewrite Iab. apply Permutation_cons_append.
    + exists root. split; [exact R1|]. split; [exact R2|]. split; [rewrite R3; replace (S i + todo + n) with (i + S todo + n) by lia; reflexivity|]. split.
      * intros _. destruct todo as [|todo'].
        -- cbn [merge_rounds] in R1. injection R1 as R1. rewrite R1 in P3. destruct h2; [|discriminate]. apply Permutation_length_1 in P3. rewrite P3. cbn. lia.
        -- rewrite R4 by lia. lia.
      * intros ps Pp F. assert (Pc : Permutation (map fst ps) (count a :: count b :: map count h2)) by (rewrite Pp, Pab; reflexivity).
        destruct (merge_feasible (sum (map snd ps)) ps (count a) (count b) (map count h2) (le_n _) Pc) as (qs & Q1 & Q2 & Q3).
        -- rewrite Forall_forall in A1. apply Forall_forall. intros w Hw. change (count b :: map count h2) with (map count (b :: h2)) in Hw. apply in_map_iff in Hw. destruct Hw as (y & <- & Hy).
           apply A1. apply Permutation_sym in P2. eapply Permutation_in; eassumption.
        -- rewrite Forall_forall in A2. apply Forall_forall. intros w Hw. apply in_map_iff in Hw. destruct Hw as (y & <- & Hy). apply A2. exact Hy.
        -- exact F.
        -- assert (Pq : Permutation (map fst qs) (map count (heappush Q h2 x))) by (rewrite Q1, P3; reflexivity).
           specialize (R5 qs Pq Q2). rewrite (sum_perm _ _ (Permutation_map tcost P3)) in R5. cbn [map sum] in R5. unfold x in R5. rewrite tcost_node in R5 by exact Wx.
           rewrite (sum_perm _ _ (Permutation_map tcost Pab)). cbn [map sum]. lia.
Qed.

(** ** Reading the codes off the tree *)
Fixpoint entries (t : item) (code : list bool) (points : list nat) : list (nat * (list bool * list nat)) :=
  match t with
  | Leaf _ i => [(i, (code, points))]
  | Node _ k l r => entries r (code ++ [true]) (points ++ [k - n]) ++ entries l (code ++ [false]) (points ++ [k - n])
  end.
Fixpoint size (t : item) : nat := match t with Leaf _ _ => 1 | Node _ _ l r => 1 + size l + size r end.
Definition dsets (es : list (nat * (list bool * list nat))) (d : dict nat (list bool * list nat)) := fold_left (fun d e => dset d (fst e) (snd e)) es d.

Lemma walk_ok : forall stack fuel acc, Forall (fun s => wf (fst (fst s))) stack -> sum (map (fun s => size (fst (fst s))) stack) <= fuel ->
  walk fuel n stack acc = Ok (dsets (flat_map (fun s => entries (fst (fst s)) (snd (fst s)) (snd s)) stack) acc).
Proof.
  intros stack fuel. revert stack. induction fuel as [|fuel IH]; intros stack acc W Z.
  - destruct stack as [|[[t c] p] s]; [reflexivity|]. exfalso. cbn in Z. destruct t; cbn in Z; lia.
  - destruct stack as [|[[t c] p] s]; [reflexivity|]. cbn [walk]. inversion W as [|? ? Wt Ws]; subst. cbn [fst] in Wt. cbn [map sum fst] in Z.
    destruct t as [cnt i|cnt k l r]; cbn [index].
    + destruct Wt as [Hi _]. replace (i <? n) with true by lia. rewrite IH by (try assumption; cbn in Z; lia). reflexivity.
    + destruct Wt as (_ & Hk & _ & _ & Wl & Wr). replace (k <? n) with false by lia. cbn [size] in Z. rewrite IH.
      * cbn [flat_map fst snd entries]. rewrite <- !app_assoc. reflexivity.
      * repeat constructor; assumption.
      * cbn [map sum fst]. lia.
Qed.
Lemma entries_spec : forall t code points i c pts, In (i, (c, pts)) (entries t code points) <->
  exists cnt p, subtree t p = Some (Leaf cnt i) /\ c = code ++ p /\
    pts = points ++ map (fun k => match subtree t (firstn k p) with Some x => index x - n | None => 0 end) (seq 0 (length p)).
Proof.
  induction t as [cnt j|cnt k l IHl r IHr]; intros code points i c pts; cbn [entries].
  - split.
    + intros [E|[]]. injection E as <- <- <-. exists cnt, []. cbn. rewrite !app_nil_r. auto.
    + intros (cnt' & p & E & -> & ->). destruct p; [|discriminate]. cbn in E. injection E as <- <-. cbn. rewrite !app_nil_r. auto.
  - rewrite in_app_iff, IHr, IHl.
    assert (X : forall b p, map (fun j => match subtree (Node cnt k l r) (firstn j (b :: p)) with Some x => index x - n | None => 0 end) (seq 0 (length (b :: p)))
      = (k - n) :: map (fun j => match subtree (if b then r else l) (firstn j p) with Some x => index x - n | None => 0 end) (seq 0 (length p))).
    { intros b p. cbn [length seq map]. f_equal. rewrite <- seq_shift, map_map. reflexivity. }
    split.
    + intros [(c' & p & E & -> & ->)|(c' & p & E & -> & ->)]; [exists c', (true :: p) | exists c', (false :: p)]; rewrite X; rewrite <- !app_assoc; auto.
    + intros (c' & p & E & -> & ->). destruct p as [|b p]; [discriminate|]. rewrite X. cbn in E.
      destruct b; [left | right]; exists c', p; rewrite <- !app_assoc; auto.
Qed.
Lemma entries_size : forall t, wf t -> NoDup (ids t) -> size t = length (ids t).
Proof. intros t _ _. induction t; cbn; [reflexivity|]. rewrite app_length. lia. Qed.
Lemma entries_fst : forall t c p, Permutation (map fst (entries t c p)) (map fst (leaves t)).
Proof.
  induction t as [cnt j|cnt k l IHl r IHr]; intros c p; cbn [entries leaves]; [reflexivity|].
  rewrite !map_app, !map_map. cbn [fst]. rewrite IHr, IHl. apply Permutation_app_comm.
Qed.
Lemma dsets_get : forall es d, NoDup (map fst es) -> forall i v, dget (dsets es d) i = Some v <-> In (i, v) es \/ (~ In i (map fst es) /\ dget d i = Some v).
Proof.
  induction es as [|[j w] es IH]; intros d N i v; cbn [dsets fold_left map fst snd].
  - split; [intros H; right; auto | intros [[]|[_ H]]; exact H].
  - inversion N as [|? ? N1 N2]; subst. change (fold_left _ es ?d') with (dsets es d'). rewrite (IH _ N2). rewrite dget_dset. destruct (eq_dec j i) as [->|Ne].
    + split.
      * intros [H|[H1 H2]]; [left; right; exact H|]. injection H2 as <-. left; left; reflexivity.
      * intros [[H|H]|[H _]]; [injection H as <-; right; auto | exfalso; apply N1; apply in_map_iff; exists (i, v); auto | exfalso; apply H; left; reflexivity].
    + split.
      * intros [H|[H1 H2]]; [left; right; exact H|]. right. split; [intros [X|X]; [congruence | auto] | exact H2].
      * intros [[H|H]|[H1 H2]]; [congruence | left; exact H | right; split; [intros X; apply H1; right; exact X | exact H2]].
Qed.
End Forest.
