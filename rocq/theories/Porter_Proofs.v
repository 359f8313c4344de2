(** The index-based stemmer follows the rules of Porter_Spec. *)
From Verif Require Import Base Str Porter_Model Porter_Spec.
From Coq Require Import ZifyBool ZifyNat ZifyN.
Local Open Scope nat_scope.

(** ** Words *)
Lemma shape_from_length : forall w p, length (shape_from p w) = length w.
Proof. induction w as [|c w IH]; intros p; cbn; [reflexivity|]. now rewrite IH. Qed.
Lemma shape_length : forall w, length (shape w) = length w.
Proof. intros w. apply shape_from_length. Qed.
Lemma shape_from_app : forall u v p, exists q, shape_from p (u ++ v) = shape_from p u ++ shape_from q v /\ (u <> [] -> q = last (shape_from p u) false) /\ (u = [] -> q = p).
Proof.
  induction u as [|c u IH]; intros v p; cbn [app shape_from]; [exists p; split; [reflexivity|]; split; [congruence | reflexivity]|].
  set (k := if vowel c then false else if (c =? 121)%N then negb p else true). destruct (IH v k) as (q & E & A & B). exists q. rewrite E. split; [reflexivity|]. split; [|discriminate]. intros _.
  destruct u as [|c' u]; [rewrite (B eq_refl); reflexivity|]. rewrite A by discriminate. reflexivity.
Qed.
Lemma shape_app : forall u v, exists q, shape (u ++ v) = shape u ++ shape_from q v.
Proof. intros u v. destruct (shape_from_app u v false) as (q & E & _). exists q. exact E. Qed.
Lemma nth_shape : forall b p i c, nth_error b i = Some c ->
  nth i (shape_from p b) false = if vowel c then false else if N.eqb c 121 then negb (match i with 0 => p | S i' => nth i' (shape_from p b) false end) else true.
Proof.
  induction b as [|x b IH]; intros p i c H; [destruct i; discriminate|]. destruct i as [|i]; cbn [nth_error nth shape_from] in *; [injection H as ->; reflexivity|].
  rewrite (IH _ _ _ H). destruct i as [|i]; reflexivity.
Qed.
Lemma nth_runs : forall b n i c, nth_error b i = Some c ->
  nth i (runs n b) 0 = if N.eqb c 121 then S (match i with 0 => n | S i' => nth i' (runs n b) 0 end) else 0.
Proof.
  induction b as [|x b IH]; intros n i c H; [destruct i; discriminate|]. destruct i as [|i]; cbn [nth_error nth runs] in *; [injection H as ->; reflexivity|].
  rewrite (IH _ _ _ H). destruct i as [|i]; reflexivity.
Qed.
Lemma runs_length : forall b n, length (runs n b) = length b.
Proof. induction b as [|x b IH]; intros n; cbn; [reflexivity|]. now rewrite IH. Qed.
Lemma runs_app : forall u v n, exists m, runs n (u ++ v) = runs n u ++ runs m v.
Proof. induction u as [|c u IH]; intros v n; cbn [app runs]; [exists n; reflexivity|]. destruct (IH v (if (c =? 121)%N then S n else 0)) as [m E]. exists m. rewrite E. reflexivity. Qed.
Lemma runs_below_prefix : forall d u v, runs_below d (u ++ v) -> runs_below d u.
Proof. intros d u v H. unfold runs_below in *. destruct (runs_app u v 0) as [m E]. rewrite E in H. apply Forall_app in H. apply H. Qed.
Definition no_y (s : pystr) : bool := forallb (fun c => negb (N.eqb c 121)) s.
Lemma runs_below_app : forall d u s, 0 < d -> runs_below d u -> no_y s = true -> runs_below d (u ++ s).
Proof.
  intros d u s Hd H Y. unfold runs_below in *. destruct (runs_app u s 0) as [m E]. rewrite E. apply Forall_app. split; [exact H|]. clear - Hd Y. revert m. induction s as [|c s IH]; intros m; cbn [runs]; [constructor|].
  cbn [no_y forallb] in Y. apply andb_true_iff in Y. destruct Y as [Y1 Y2]. destruct (N.eqb c 121); [discriminate|]. constructor; [exact Hd|]. apply IH. exact Y2.
Qed.
Lemma chop_some : forall s w u, chop s w = Some u <-> w = u ++ s.
Proof.
  intros s w u. unfold chop. destruct (eq_dec (skipn (length w - length s) w) s) as [E|E]; split; intros H.
  - injection H as <-. rewrite <- E at 2. now rewrite firstn_skipn.
  - subst w. rewrite app_length. replace (length u + length s - length s) with (length u) by lia. rewrite firstn_app, Nat.sub_diag, firstn_all. cbn. now rewrite app_nil_r.
  - discriminate.
  - exfalso. apply E. subst w. rewrite app_length. replace (length u + length s - length s) with (length u) by lia. rewrite skipn_app, skipn_all, Nat.sub_diag. reflexivity.
Qed.
Lemma chop_none : forall s w, chop s w = None -> forall u, w <> u ++ s.
Proof. intros s w H u E. apply chop_some in E. congruence. Qed.
Lemma last_snoc : forall {A} (u : list A) c x, last (u ++ [c]) x = c.
Proof. intros. induction u as [|a u IH]; [reflexivity|]. cbn [app]. destruct (u ++ [c]) eqn:E; [destruct u; discriminate|]. rewrite <- E in *. cbn [last]. rewrite E. rewrite <- E. exact IH. Qed.

(** ** Indexing *)
Lemma pyget_nat : forall b i c, nth_error b i = Some c -> pyget b (Z.of_nat i) = Ok c.
Proof. intros b i c H. unfold pyget. destruct (Z.ltb_spec (Z.of_nat i) 0); [lia|]. destruct (Z.ltb_spec (Z.of_nat i) 0); [lia|]. rewrite Nat2Z.id, H. reflexivity. Qed.
Lemma pyget_app : forall u c rest, pyget (u ++ c :: rest) (pylen u) = Ok c.
Proof. intros. unfold pylen. apply pyget_nat. rewrite nth_error_app2 by lia. now rewrite Nat.sub_diag. Qed.
Lemma pyprefix_nat : forall b n, n <= length b -> pyprefix b (Z.of_nat n) = firstn n b.
Proof. intros b n H. unfold pyprefix, clamp, pylen. f_equal. destruct (Z.ltb_spec (Z.of_nat n) 0); lia. Qed.
Lemma pyprefix_app : forall u rest, pyprefix (u ++ rest) (pylen u) = u.
Proof. intros. unfold pylen. rewrite pyprefix_nat by (rewrite app_length; lia). rewrite firstn_app, Nat.sub_diag, firstn_all. cbn. apply app_nil_r. Qed.
Lemma pyslice_app : forall u s rest, pyslice (u ++ s ++ rest) (pylen u) (pylen u + pylen s) = s.
Proof.
  intros. unfold pyslice, clamp, pylen. rewrite !app_length.
  destruct (Z.ltb_spec (Z.of_nat (length u)) 0); [lia|]. destruct (Z.ltb_spec (Z.of_nat (length u) + Z.of_nat (length s)) 0); [lia|].
  replace (Z.to_nat _) with (length u + length s) by lia. replace (Z.to_nat _) with (length u) by lia.
  rewrite skipn_app, skipn_all, Nat.sub_diag. cbn [app skipn]. replace (length u + length s - length u) with (length s) by lia. rewrite firstn_app, Nat.sub_diag, firstn_all. cbn. apply app_nil_r.
Qed.

Section Depth.
Variable depth : nat.
Notation below := (runs_below depth).

Lemma below_nth : forall b i, below b -> i < length b -> nth i (runs 0 b) 0 < depth.
Proof. intros b i H L. unfold runs_below in H. rewrite Forall_forall in H. apply H. apply nth_In. now rewrite runs_length. Qed.
Lemma cons_nth : forall d b i, i < length b -> nth i (runs 0 b) 0 < d -> cons d b (Z.of_nat i) = Ok (nth i (shape b) false).
Proof.
  induction d as [|d IH]; intros b i Hi Hr; [lia|]. destruct (nth_error b i) as [c|] eqn:E; [|apply nth_error_None in E; lia].
  cbn [cons]. rewrite (pyget_nat _ _ _ E). cbn [rbind]. unfold shape. rewrite (nth_shape _ _ _ _ E). rewrite (nth_runs _ _ _ _ E) in Hr. change (ch_in c (str "aeiou")) with (vowel c). destruct (vowel c); [reflexivity|].
  destruct (N.eqb c 121); [|reflexivity]. destruct i as [|i]; [reflexivity|].
  destruct (Z.eqb_spec (Z.of_nat (S i)) 0); [lia|]. replace (Z.of_nat (S i) - 1)%Z with (Z.of_nat i) by lia. rewrite IH; [reflexivity | lia | lia].
Qed.
Lemma cons_ok : forall u rest i, below (u ++ rest) -> i < length u -> cons depth (u ++ rest) (Z.of_nat i) = Ok (nth i (shape u) false).
Proof.
  intros u rest i H L. rewrite cons_nth; [|rewrite app_length; lia | apply below_nth; [exact H | rewrite app_length; lia]]. destruct (shape_app u rest) as [q E]. rewrite E. rewrite app_nth1; [reflexivity|]. rewrite shape_length. exact L.
Qed.

(** ** The measure *)
Lemma vc_const : forall x l, Forall (eq x) l -> vc l = 0.
Proof. intros x l H. induction H as [|a l <- H IH]; [reflexivity|]. destruct H as [|b l <- H]; [reflexivity|]. cbn [vc] in *. rewrite IH. destruct x; reflexivity. Qed.
Lemma vc_pre : forall x l y t, Forall (eq x) l -> vc (x :: l ++ y :: t) = (if negb x && y then 1 else 0) + vc (y :: t).
Proof.
  intros x l y t H. induction H as [|a l <- H IH]; [reflexivity|]. cbn [app]. change (vc (x :: x :: l ++ y :: t)) with ((if negb x && x then 1 else 0) + vc (x :: l ++ y :: t)). rewrite IH. destruct x; reflexivity.
Qed.
Section Loops.
Variables u rest : pystr.
Hypothesis B : below (u ++ rest).
Notation b := (u ++ rest).
Notation j := (pylen u - 1)%Z.
Lemma scan_ok : forall want r fuel i, skipn i (shape u) = r -> i <= length u -> length r < fuel ->
  (scan depth fuel want b j (Z.of_nat i) = Ok None /\ Forall (eq (negb want)) r) \/
  (exists l1 l2, r = l1 ++ want :: l2 /\ Forall (eq (negb want)) l1 /\ scan depth fuel want b j (Z.of_nat i) = Ok (Some (Z.of_nat (i + length l1)))).
Proof.
  intros want. induction r as [|x r IH]; intros fuel i Er Hi Hf; (destruct fuel as [|fuel]; [cbn in Hf; lia|]); cbn [scan].
  - apply (f_equal (@length _)) in Er. rewrite skipn_length, shape_length in Er. cbn in Er. left. destruct (Z.ltb_spec j (Z.of_nat i)) as [H|H]; [split; [reflexivity | constructor]|]. unfold pylen in H. lia.
  - assert (L : i < length u). { assert (length (skipn i (shape u)) <> 0) by (rewrite Er; discriminate). rewrite skipn_length, shape_length in H. lia. }
    destruct (Z.ltb_spec j (Z.of_nat i)) as [H|H]; [unfold pylen in H; lia|]. rewrite (cons_ok _ _ _ B L). cbn [rbind].
    assert (Ex : nth i (shape u) false = x). { rewrite <- (firstn_skipn i (shape u)), Er. rewrite app_nth2; rewrite firstn_length, shape_length; [|lia]. replace (i - Nat.min i (length u)) with 0 by lia. reflexivity. }
    assert (Er' : skipn (S i) (shape u) = r). { clear - Er. revert Er. generalize (shape u) as l. induction i as [|i IHi]; intros [|y l] E; cbn in *; try discriminate; [now injection E | apply IHi; exact E]. }
    rewrite Ex. destruct (Bool.eqb x want) eqn:Eb.
    + apply eqb_prop in Eb. subst want. right. exists [], r. split; [reflexivity|]. split; [constructor|]. cbn [length]. rewrite Nat.add_0_r. reflexivity.
    + assert (Xn : negb want = x) by (destruct x, want; try discriminate; reflexivity).
      replace (Z.of_nat i + 1)%Z with (Z.of_nat (S i)) by lia. cbn [length] in Hf. destruct (IH fuel (S i) Er' ltac:(lia) ltac:(lia)) as [[E F]|(l1 & l2 & E1 & E2 & E3)].
      * left. split; [exact E|]. constructor; [exact Xn | exact F].
      * right. exists (x :: l1), l2. split; [cbn; congruence|]. split; [constructor; [exact Xn | exact E2]|]. rewrite E3. f_equal. f_equal. cbn [length]. lia.
Qed.
Lemma skipn_mid : forall {A} (l : list A) i l1 x l2, skipn i l = l1 ++ x :: l2 -> skipn (S (i + length l1)) l = l2 /\ i + length l1 < length l.
Proof.
  intros A l i l1 x l2 H. split.
  - rewrite <- (firstn_skipn i l) at 1. rewrite H. assert (Li : length (firstn i l) = i). { rewrite firstn_length. assert (length (skipn i l) <> 0) by (rewrite H, app_length; cbn; lia). rewrite skipn_length in H0. lia. }
    rewrite skipn_app, Li. rewrite skipn_all2 by lia. cbn [app]. replace (S (i + length l1) - i) with (S (length l1)) by lia. rewrite skipn_app, skipn_all2 by lia. cbn [app]. replace (S (length l1) - length l1) with 1 by lia. reflexivity.
  - apply (f_equal (@length _)) in H. rewrite skipn_length, app_length in H. cbn in H. lia.
Qed.
Lemma m_loop_ok : forall fuel i r n, skipn i (shape u) = r -> i <= length u -> length r < fuel -> m_loop depth fuel b j (Z.of_nat i) n = Ok (n + Z.of_nat (vc (false :: r)))%Z.
Proof.
  induction fuel as [|fuel IH]; intros i r n Er Hi Hf; [lia|]. cbn [m_loop].
  assert (Lr : length r < S (length b)) by (rewrite <- Er, skipn_length, shape_length, app_length; lia).
  destruct (scan_ok true r (S (length b)) i Er Hi Lr) as [[E F]|(l1 & l2 & E1 & E2 & E3)].
  - rewrite E. cbn [rbind]. rewrite (vc_const false); [f_equal; lia|]. constructor; [reflexivity | exact F].
  - rewrite E3. cbn [rbind]. subst r. destruct (skipn_mid _ _ _ _ _ E1) as [S1 S2]. rewrite shape_length in S2. rewrite E1. rewrite (vc_pre false l1 true l2) by exact E2. cbn [negb andb].
    replace (Z.of_nat (i + length l1) + 1)%Z with (Z.of_nat (S (i + length l1))) by lia.
    assert (L2 : length l2 < S (length b)) by (rewrite E1, app_length in Lr; cbn in Lr; lia).
    destruct (scan_ok false l2 (S (length b)) (S (i + length l1)) S1 ltac:(lia) L2) as [[E F]|(l3 & l4 & F1 & F2 & F3)].
    + rewrite E. cbn [rbind]. rewrite (vc_const true); [f_equal; lia|]. constructor; [reflexivity | exact F].
    + rewrite F3. cbn [rbind]. rewrite F1 in S1, E1 |- *. destruct (skipn_mid _ _ _ _ _ S1) as [T1 T2]. rewrite shape_length in T2. rewrite (vc_pre true l3 false l4) by exact F2. cbn [negb andb].
      replace (Z.of_nat (S (i + length l1) + length l3) + 1)%Z with (Z.of_nat (S (S (i + length l1) + length l3))) by lia. rewrite (IH _ l4); [f_equal; lia | exact T1 | lia|].
      rewrite E1, !app_length in Hf. cbn in Hf. rewrite app_length in Hf. cbn in Hf. lia.
Qed.
Lemma measure_ok : forall k, measure_ depth (mkP b k j) = Ok (Z.of_nat (measure u)).
Proof.
  intros k. unfold measure_, measure. cbn [pb pj].
  destruct (scan_ok false (shape u) (S (length b)) 0 eq_refl ltac:(lia) ltac:(rewrite shape_length, app_length; lia)) as [[E F]|(l1 & l2 & E1 & E2 & E3)].
  - change 0%Z with (Z.of_nat 0) at 1. rewrite E. cbn [rbind]. rewrite (vc_const true); [reflexivity | exact F].
  - change 0%Z with (Z.of_nat 0) at 1. rewrite E3. cbn [rbind]. destruct (skipn_mid (shape u) 0 l1 false l2 E1) as [S1 S2]. rewrite shape_length in S2. cbn [Nat.add] in *.
    replace (Z.of_nat (length l1) + 1)%Z with (Z.of_nat (S (length l1))) by lia. rewrite (m_loop_ok _ _ l2); [|exact S1 | lia|].
    + rewrite E1. f_equal. rewrite Z.add_0_l. f_equal. destruct l1 as [|x l1]; [reflexivity|]. inversion E2 as [|? ? X1 X2]. cbn [negb] in *. rewrite <- X1. cbn [app]. rewrite (vc_pre true l1 false l2) by exact X2. reflexivity.
    + apply (f_equal (@length _)) in E1. rewrite shape_length, app_length in E1. cbn in E1. rewrite app_length. lia.
Qed.
Lemma all_cons_ok : forall n i, i + n <= length u -> all_cons depth (seq i n) b = Ok (forallb (fun x => x) (firstn n (skipn i (shape u)))).
Proof.
  induction n as [|n IH]; intros i H; [reflexivity|]. cbn [seq all_cons]. rewrite (cons_ok _ _ _ B) by lia. cbn [rbind].
  assert (Es : skipn i (shape u) = nth i (shape u) false :: skipn (S i) (shape u)).
  { assert (L : i < length (shape u)) by (rewrite shape_length; lia). clear - L. revert L. generalize (shape u) as l. induction i as [|i IHi]; intros [|y l] L; cbn in *; try lia; [reflexivity|]. apply IHi. lia. }
  rewrite Es. cbn [firstn forallb]. rewrite IH by lia. destruct (nth i (shape u) false); reflexivity.
Qed.
Lemma vowelinstem_ok : forall k, vowelinstem depth (mkP b k j) = Ok (has_vowel u).
Proof.
  intros k. unfold vowelinstem. cbn [pb pj]. replace (Z.to_nat (j + 1)) with (length u) by (unfold pylen; lia). rewrite all_cons_ok by lia. cbn [rbind skipn]. rewrite <- (shape_length u), firstn_all. f_equal. unfold has_vowel.
  induction (shape u) as [|x l IH]; [reflexivity|]. cbn. destruct x; [exact IH | reflexivity].
Qed.
End Loops.

(** ** Ends of words *)
Lemma rev_shape : forall u c, exists k, rev (shape (u ++ [c])) = k :: rev (shape u).
Proof. intros u c. destruct (shape_app u [c]) as [q E]. rewrite E, rev_app_distr. cbn. eauto. Qed.
Lemma nth_last_shape : forall u c, nth (length u) (shape (u ++ [c])) false = hd false (rev (shape (u ++ [c]))).
Proof. intros u c. destruct (shape_app u [c]) as [q E]. rewrite E. rewrite app_nth2; rewrite shape_length; [|lia]. rewrite Nat.sub_diag, rev_app_distr. reflexivity. Qed.
Lemma snoc_or_nil : forall {A} (l : list A), l = [] \/ exists u c, l = u ++ [c].
Proof. intros A l. destruct l as [|a l] using rev_ind; [left; reflexivity | right; eauto]. Qed.
Lemma doublec_ok : forall u rest, below (u ++ rest) -> u <> [] -> doublec depth (u ++ rest) (pylen u - 1) = Ok (double_cons u).
Proof.
  intros u rest H Ne. destruct (snoc_or_nil u) as [->|(v & c & ->)]; [congruence|]. clear Ne. unfold doublec, double_cons, pylen. rewrite app_length. cbn [length].
  destruct (snoc_or_nil v) as [->|(v' & c' & ->)].
  - cbn [app length]. destruct (Z.ltb_spec 0 (Z.of_nat (0 + 1) - 1)); [lia|]. cbn. destruct (if vowel c then false else if (c =? 121)%N then negb false else true); reflexivity.
  - rewrite app_length. cbn [length]. destruct (Z.ltb_spec 0 (Z.of_nat (length v' + 1 + 1) - 1)); [|lia].
    replace (Z.of_nat (length v' + 1 + 1) - 1)%Z with (Z.of_nat (length v' + 1)) by lia.
    rewrite (pyget_nat _ _ c) by (rewrite <- !app_assoc, nth_error_app2 by lia; replace (length v' + 1 - length v') with 1 by lia; reflexivity). cbn [rbind].
    replace (Z.of_nat (length v' + 1) - 1)%Z with (Z.of_nat (length v')) by lia.
    rewrite (pyget_nat _ _ c') by (rewrite <- !app_assoc, nth_error_app2 by lia; rewrite Nat.sub_diag; reflexivity). cbn [rbind].
    rewrite (cons_ok _ _ _ H) by (rewrite !app_length; cbn; lia).
    replace (length v' + 1) with (length (v' ++ [c'])) by (rewrite app_length; reflexivity). rewrite nth_last_shape. destruct (rev_shape (v' ++ [c']) c) as [k E]. rewrite E. cbn [hd].
    rewrite !rev_app_distr. cbn [rev app]. destruct k; [destruct (c =? c')%N; reflexivity | destruct (c =? c')%N; reflexivity].
Qed.
Lemma cvc_ok : forall u rest, below (u ++ rest) -> cvc depth (u ++ rest) (pylen u - 1) = Ok (short_end u).
Proof.
  intros u rest H. unfold cvc, short_end, pylen. destruct (Z.ltb_spec (Z.of_nat (length u) - 1) 2) as [L|L].
  - destruct (rev (shape u)) as [|[] [|[] [|[] l]]] eqn:E; try (destruct (rev u); reflexivity). exfalso. apply (f_equal (@length _)) in E. rewrite rev_length, shape_length in E. cbn in E. lia.
  - destruct (snoc_or_nil u) as [->|(v & c & ->)]; [cbn in L; lia|]. destruct (snoc_or_nil v) as [->|(v' & c' & ->)]; [cbn in L; lia|]. destruct (snoc_or_nil v') as [->|(x & c'' & ->)]; [cbn in L; lia|].
    set (u := ((x ++ [c'']) ++ [c']) ++ [c]) in *. assert (Lu : length u = S (S (S (length x)))) by (unfold u; rewrite !app_length; cbn; lia). rewrite Lu.
    replace (Z.of_nat (S (S (S (length x)))) - 1)%Z with (Z.of_nat (S (S (length x)))) by lia. replace (Z.of_nat (S (S (length x))) - 1)%Z with (Z.of_nat (S (length x))) by lia.
    replace (Z.of_nat (S (S (length x))) - 2)%Z with (Z.of_nat (length x)) by lia.
    rewrite !(cons_ok _ _ _ H) by lia.
    assert (Sh : exists k0 k1 k2 l, rev (shape u) = k0 :: k1 :: k2 :: l /\ nth (S (S (length x))) (shape u) false = k0 /\ nth (S (length x)) (shape u) false = k1 /\ nth (length x) (shape u) false = k2).
    { unfold u. destruct (shape_app ((x ++ [c'']) ++ [c']) [c]) as [q1 E1]. destruct (shape_app (x ++ [c'']) [c']) as [q2 E2]. destruct (shape_app x [c'']) as [q3 E3]. rewrite E1, E2, E3. cbn [shape_from].
      set (k0 := if vowel c then _ else _). set (k1 := if vowel c' then _ else _). set (k2 := if vowel c'' then _ else _). exists k0, k1, k2, (rev (shape x)). rewrite !rev_app_distr. cbn [rev app]. split; [reflexivity|].
      rewrite <- !app_assoc. cbn [app]. rewrite <- (shape_length x). rewrite !app_nth2 by lia. replace (S (S (length (shape x))) - length (shape x)) with 2 by lia. replace (S (length (shape x)) - length (shape x)) with 1 by lia. rewrite Nat.sub_diag. auto. }
    destruct Sh as (k0 & k1 & k2 & l & Sr & -> & -> & ->). rewrite Sr. cbn [rbind].
    assert (Rv : rev u = c :: c' :: c'' :: rev x) by (unfold u; rewrite !rev_app_distr; reflexivity). rewrite Rv.
    destruct k0; cbn [negb]; [|reflexivity]. destruct k1; [reflexivity|]. destruct k2; cbn [negb]; [|reflexivity].
    rewrite (pyget_nat _ _ c); [reflexivity|]. unfold u. rewrite <- !app_assoc. rewrite nth_error_app2 by lia. replace (S (S (length x)) - length x) with 2 by lia. reflexivity.
Qed.

(** ** The state *)
Definition holds (st : pstate) (w : pystr) : Prop := w <> [] /\ exists rest, pb st = w ++ rest /\ pk st = (pylen w - 1)%Z /\ below (pb st).
Lemma ends_ok : forall s st w, s <> [] -> holds st w ->
  ends s st = match chop s w with Some u => Ok (true, set_j st (pylen u - 1)) | None => Ok (false, st) end.
Proof.
  intros s st w Hs (Ne & rest & Eb & Ek & B). unfold ends. destruct (snoc_or_nil w) as [->|(v & c & ->)]; [congruence|]. clear Ne.
  assert (Gk : pyget (pb st) (pk st) = Ok c). { rewrite Eb, Ek, <- app_assoc. unfold pylen. rewrite app_length. cbn [length app]. replace (Z.of_nat (length v + 1) - 1)%Z with (pylen v) by (unfold pylen; lia). apply pyget_app. }
  rewrite Gk. cbn [rbind]. destruct (snoc_or_nil s) as [->|(t & d & ->)]; [congruence|]. rewrite last_snoc.
  destruct (chop (t ++ [d]) (v ++ [c])) as [u|] eqn:Ec.
  - apply chop_some in Ec. rewrite app_assoc in Ec. apply app_inj_tail in Ec. destruct Ec as [-> ->]. rewrite N.eqb_refl. cbn [negb].
    assert (K : (pk st = pylen u + pylen (t ++ [d]) - 1)%Z). { rewrite Ek. unfold pylen. rewrite !app_length. cbn. lia. }
    destruct (Z.ltb_spec (pk st + 1) (pylen (t ++ [d]))) as [L|L]; [unfold pylen in *; lia|].
    assert (Sl : pyslice (pb st) (pk st - pylen (t ++ [d]) + 1) (pk st + 1) = t ++ [d]).
    { rewrite K, Eb. rewrite <- !app_assoc. replace (pylen u + pylen (t ++ [d]) - 1 - pylen (t ++ [d]) + 1)%Z with (pylen u) by lia. replace (pylen u + pylen (t ++ [d]) - 1 + 1)%Z with (pylen u + pylen (t ++ [d]))%Z by lia.
      pose proof (pyslice_app u (t ++ [d]) rest) as X. rewrite <- app_assoc in X. exact X. }
    rewrite Sl, eqb_refl. cbn [negb]. f_equal. f_equal. f_equal. lia.
  - destruct (N.eqb_spec d c) as [->|Nd]; cbn [negb]; [|reflexivity]. destruct (Z.ltb_spec (pk st + 1) (pylen (t ++ [c]))) as [L|L]; [reflexivity|].
    destruct (eqb (pyslice (pb st) (pk st - pylen (t ++ [c]) + 1) (pk st + 1)) (t ++ [c])) eqn:E; [|reflexivity]. exfalso. apply (proj1 (Base.eqb_true _ _)) in E.
    assert (Lt : length (t ++ [c]) <= length (v ++ [c])) by (rewrite Ek in L; unfold pylen in L; lia).
    set (w := v ++ [c]) in *. set (s := t ++ [c]) in *. set (u := firstn (length w - length s) w).
    assert (Lu : pylen u = (pylen w - pylen s)%Z) by (unfold u, pylen; rewrite firstn_length; lia).
    assert (Ls : pylen (skipn (length w - length s) w) = pylen s) by (unfold pylen; rewrite skipn_length; lia).
    assert (Ew : w = u ++ skipn (length w - length s) w) by (symmetry; apply firstn_skipn).
    clearbody u. set (sk := skipn (length w - length s) w) in *. clearbody sk. apply (chop_none _ _ Ec u). transitivity (u ++ sk); [exact Ew|]. f_equal. rewrite Eb, Ek in E.
    replace (pylen w - 1 - pylen s + 1)%Z with (pylen u) in E by lia. replace (pylen w - 1 + 1)%Z with (pylen u + pylen sk)%Z in E by lia.
    replace (w ++ rest) with (u ++ sk ++ rest) in E by (rewrite app_assoc; f_equal; symmetry; exact Ew). rewrite pyslice_app in E. exact E.
Qed.
Lemma holds_j : forall st w j, holds st w -> holds (set_j st j) w.
Proof. intros st w j H. exact H. Qed.
(** Moving [k] back to a prefix. *)
Lemma holds_prefix : forall st u v, holds st (u ++ v) -> u <> [] -> forall j, holds (mkP (pb st) (pylen u - 1) j) u.
Proof. intros st u v (Ne & rest & Eb & Ek & B) Hu j. split; [exact Hu|]. exists (v ++ rest). cbn [pb pk]. rewrite Eb, <- app_assoc. split; [reflexivity|]. split; [reflexivity|]. rewrite <- app_assoc in Eb. rewrite <- Eb. exact B. Qed.
(** Replacing the end. *)
Lemma holds_setto : forall st u v s, holds st (u ++ v) -> pj st = (pylen u - 1)%Z -> no_y s = true -> u ++ s <> [] -> 0 < depth -> holds (setto s st) (u ++ s).
Proof.
  intros st u v s (Ne & rest & Eb & Ek & B) Hj Hs Hn Hd. unfold setto. rewrite Hj, Eb. replace (pylen u - 1 + 1)%Z with (pylen u) by lia. rewrite <- app_assoc, pyprefix_app. split; [exact Hn|]. exists []. cbn [pb pk]. rewrite app_nil_r. split; [reflexivity|]. split; [reflexivity|].
  apply runs_below_app; [exact Hd | | exact Hs]. rewrite Eb, <- app_assoc in B. exact (runs_below_prefix _ _ _ B).
Qed.
Lemma measure_holds : forall st u v, holds st (u ++ v) -> pj st = (pylen u - 1)%Z -> measure_ depth st = Ok (Z.of_nat (measure u)).
Proof. intros [b k j] u v (Ne & rest & Eb & Ek & B) Hj. cbn [pb pk pj] in *. subst. rewrite <- app_assoc in *. apply (measure_ok u (v ++ rest) B). Qed.
Lemma vowel_holds : forall st u v, holds st (u ++ v) -> pj st = (pylen u - 1)%Z -> vowelinstem depth st = Ok (has_vowel u).
Proof. intros [b k j] u v (Ne & rest & Eb & Ek & B) Hj. cbn [pb pk pj] in *. subst. rewrite <- app_assoc in *. apply (vowelinstem_ok u (v ++ rest) B). Qed.
Lemma doublec_holds : forall st u v, holds st (u ++ v) -> u <> [] -> doublec depth (pb st) (pylen u - 1) = Ok (double_cons u).
Proof. intros st u v (Ne & rest & Eb & Ek & B) Hu. rewrite Eb, <- app_assoc in *. apply doublec_ok; assumption. Qed.
Lemma cvc_holds : forall st u v, holds st (u ++ v) -> cvc depth (pb st) (pylen u - 1) = Ok (short_end u).
Proof. intros st u v (Ne & rest & Eb & Ek & B). rewrite Eb, <- app_assoc in *. apply cvc_ok; assumption. Qed.
Lemma get_holds : forall st u c v, holds st (u ++ c :: v) -> pyget (pb st) (pylen u) = Ok c.
Proof. intros st u c v (Ne & rest & Eb & Ek & B). rewrite Eb, <- app_assoc. apply pyget_app. Qed.
Lemma holds_k : forall st w, holds st w -> pk st = (pylen w - 1)%Z.
Proof. intros st w (_ & rest & _ & E & _). exact E. Qed.
Lemma set_j_pj : forall st j, pj (set_j st j) = j.
Proof. reflexivity. Qed.
End Depth.
