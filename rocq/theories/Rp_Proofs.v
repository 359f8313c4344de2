(** Facts about random projections. *)
From Coq Require Import Reals Lra.
From Verif Require Import Base Utils_Model MatReal_Model MatReal_Proofs Matutils_Model Matutils_Proofs2 Rp_Model Rp_Spec.
Local Open Scope R_scope.

Lemma rdot_cons : forall a row b v, rdot (a :: row) (b :: v) = a * b + rdot row v.
Proof. reflexivity. Qed.
Lemma rdot_set : forall row v i x, (i < length v)%nat -> length row = length v -> rdot row (list_set v i x) = rdot row v + nth i row 0 * (x - nth i v 0).
Proof.
  intros row v. revert row. induction v as [|b v IH]; intros row i x L E; [cbn in L; lia|]. destruct row as [|a row]; [discriminate E|]. cbn [length] in *. destruct i as [|i]; cbn [list_set nth]; rewrite !rdot_cons; [lra|].
  rewrite IH by lia. lra.
Qed.
Definition rwrites (l : list (nat * R)) (r : list R) : list R := fold_left (fun r iv => list_set r (fst iv) (snd iv)) l r.
Lemma rdot_writes : forall l row v, NoDup (map fst l) -> (forall i, In i (map fst l) -> (i < length v)%nat /\ nth i v 0 = 0) -> length row = length v ->
  rdot row (rwrites l v) = rdot row v + total (map (fun iv => nth (fst iv) row 0 * snd iv) l).
Proof.
  induction l as [|[i x] l IH]; intros row v ND H E; [cbn; lra|]. unfold rwrites. cbn [fold_left map fst snd] in *. fold (rwrites l (list_set v i x)). inversion ND as [|? ? NI ND1]; subst. destruct (H i (or_introl eq_refl)) as (Li & Zi).
  rewrite IH; [|exact ND1| |rewrite length_list_set; exact E].
  - rewrite rdot_set by assumption. cbn [total]. rewrite Zi. lra.
  - intros j J. rewrite length_list_set. destruct (H j (or_intror J)) as (Lj & Zj). split; [exact Lj|]. rewrite nth_list_set by exact Li. destruct (Nat.eqb_spec i j) as [->|]; [contradiction | exact Zj].
Qed.
Lemma rdot_zero : forall row n, rdot row (repeat 0 n) = 0.
Proof. induction row as [|a row IH]; intros [|n]; try reflexivity. cbn [repeat]. rewrite rdot_cons, IH. lra. Qed.
Lemma rdot_scale : forall k row v, rdot row (map (fun x => x / k) v) = rdot row v / k.
Proof. intros k. induction row as [|a row IH]; intros [|b v]; try (cbn; unfold Rdiv; lra). cbn [map]. rewrite !rdot_cons, IH. unfold Rdiv. lra. Qed.
Lemma full_ok : forall n d, document n d -> full_of d n = Ok (rwrites (map (fun iv => (Z.to_nat (fst iv), snd iv)) d) (repeat 0 n)).
Proof.
  intros n d (ND & F). unfold full_of. rewrite dict_of_NoDup by exact ND. rewrite rmapM_np_index by (intros z I; apply in_map_iff in I as (iv & <- & I); rewrite Forall_forall in F; apply F, I). cbn [rbind]. unfold rwrites. do 2 f_equal.
  clear. induction d as [|[i w] d IH]; [reflexivity|]. unfold dkeys, dvals in *. cbn. rewrite IH. reflexivity.
Qed.
Lemma signs_nth : forall row j, Forall (fun b => (b < 2)%nat) row -> (j < length row)%nat -> nth j (map (fun b => 1 - 2 * INR b) row) 0 = sign (nth j row 0%nat).
Proof.
  intros row j F L. rewrite (nth_indep _ 0 (1 - 2 * INR 0)) by (rewrite map_length; exact L). rewrite (map_nth (fun b => 1 - 2 * INR b)). assert (B : (nth j row 0 < 2)%nat) by (rewrite Forall_forall in F; apply F, nth_In, L).
  destruct (nth j row 0%nat) as [|[|b]]; cbn; [lra | lra | lia].
Qed.
Lemma coordinate : forall n k d row v, document n d -> full_of d n = Ok v -> length row = n -> Forall (fun b => (b < 2)%nat) row ->
  rdot (map (fun b => 1 - 2 * INR b) row) (map (fun x => x / sqrt (INR k)) v) = along row k d.
Proof.
  intros n k d row v D E L F. rewrite (full_ok n d D) in E. injection E as <-. destruct D as (ND & FD). rewrite rdot_scale. unfold along. f_equal. rewrite rdot_writes.
  - rewrite rdot_zero, Rplus_0_l, map_map. clear ND. induction FD as [|[i x] d I FD IH]; [reflexivity|]. cbn [map total fst snd] in *. rewrite IH. f_equal. f_equal. apply signs_nth; [exact F|lia].
  - rewrite map_map. cbn [fst]. clear -ND FD. induction d as [|[i x] d IH]; [constructor|]. cbn [map fst] in *. inversion ND as [|? ? NI ND1]; subst. inversion FD as [|? ? I FD1]; subst. constructor; [|apply IH; assumption]. intros K. apply in_map_iff in K as ([j y] & E & J). cbn [fst] in *.
    rewrite Forall_forall in FD1. pose proof (FD1 _ J) as B. cbn [fst] in B. assert (j = i) by lia. subst j. apply NI, in_map_iff. exists (i, y). split; [reflexivity | exact J].
  - intros i I. rewrite map_map in I. apply in_map_iff in I as ([j y] & <- & J). rewrite Forall_forall in FD. pose proof (FD _ J) as B. cbn [fst] in *. rewrite repeat_length. split; [lia|]. apply nth_repeat.
  - rewrite map_length, repeat_length. exact L.
Qed.

(** ** Means over all signs *)
Lemma total_app : forall a b, total (a ++ b) = total a + total b.
Proof. induction a as [|x a IH]; intros b; cbn [app total]; [lra|]. rewrite IH. lra. Qed.
Lemma total_map_plus : forall {A} (f g : A -> R) l, total (map (fun x => f x + g x) l) = total (map f l) + total (map g l).
Proof. intros A f g l. induction l as [|x l IH]; cbn [map total]; lra. Qed.
Lemma total_map_scal : forall {A} (f : A -> R) c l, total (map (fun x => c * f x) l) = c * total (map f l).
Proof. intros A f c l. induction l as [|x l IH]; cbn [map total]; lra. Qed.
Lemma total_map_ext : forall {A} (f g : A -> R) l, (forall x, In x l -> f x = g x) -> total (map f l) = total (map g l).
Proof. intros A f g l H. f_equal. apply map_ext_in, H. Qed.
Fixpoint sdot (row : list nat) (x : list R) : R := match row, x with b :: row', y :: x' => sign b * y + sdot row' x' | _, _ => 0 end.
Fixpoint idot (x y : list R) : R := match x, y with a :: x', b :: y' => a * b + idot x' y' | _, _ => 0 end.
Lemma rows_length : forall n, length (all_rows n) = (2 ^ n)%nat.
Proof. induction n as [|n IH]; [reflexivity|]. cbn [all_rows]. rewrite app_length, !map_length, IH. cbn. lia. Qed.
Lemma rows_spec : forall n row, In row (all_rows n) <-> length row = n /\ Forall (fun b => (b < 2)%nat) row.
Proof.
  induction n as [|n IH]; intros row; cbn [all_rows].
  - split; [intros [<-|[]]; split; [reflexivity | constructor]|]. intros (L & _). destruct row; [left; reflexivity | discriminate L].
  - rewrite in_app_iff, !in_map_iff. split.
    + intros [(r & <- & I)|(r & <- & I)]; apply IH in I as (L & F); (split; [cbn; lia | constructor; [lia | exact F]]).
    + intros (L & F). destruct row as [|b row]; [discriminate L|]. inversion F as [|? ? B F1]; subst. assert (I : In row (all_rows n)) by (apply IH; split; [cbn in L; lia | exact F1]). destruct b as [|[|b]]; [left | right | lia]; exists row; split; auto.
Qed.
Lemma rows_mean : forall n x y, length x = n -> length y = n -> total (map (fun row => sdot row x * sdot row y) (all_rows n)) = 2 ^ n * idot x y.
Proof.
  induction n as [|n IH]; intros x y Lx Ly; [destruct x; [|discriminate]; destruct y; [|discriminate]; cbn; lra|]. destruct x as [|a x]; [discriminate|]. destruct y as [|b y]; [discriminate|]. cbn [all_rows]. rewrite map_app, total_app, !map_map. cbn [sdot sign idot].
  rewrite <- total_map_plus. transitivity (total (map (fun row => 2 * (a * b) + 2 * (sdot row x * sdot row y)) (all_rows n))); [apply total_map_ext; intros r _; lra|].
  rewrite total_map_plus, (total_map_scal (fun row => sdot row x * sdot row y)), (IH x y) by (cbn in *; lia). assert (C : forall (l : list (list nat)) c, total (map (fun _ => c) l) = INR (length l) * c) by (clear; induction l as [|r l IH]; intros c; cbn [map total length]; [cbn; lra|]; rewrite IH, S_INR; lra).
  rewrite C, rows_length, pow_INR. cbn [INR pow]. replace (1 + 1) with 2 by lra. lra.
Qed.
Lemma draws_length : forall k n, length (all_draws k n) = (2 ^ (k * n))%nat.
Proof.
  induction k as [|k IH]; intros n; [reflexivity|]. cbn [all_draws]. assert (C : forall (l : list (list nat)) (m : list (list (list nat))), length (concat (map (fun r => map (cons r) m) l)) = (length l * length m)%nat) by (clear; induction l as [|r l IH]; intros m; [reflexivity|]; cbn [map concat length]; rewrite app_length, map_length, IH; cbn; lia).
  rewrite C, IH, rows_length. cbn [Nat.mul]. rewrite Nat.pow_add_r. reflexivity.
Qed.
Lemma draws_spec : forall k n ds, In ds (all_draws k n) <-> length ds = k /\ Forall (fun row => length row = n /\ Forall (fun b => (b < 2)%nat) row) ds.
Proof.
  induction k as [|k IH]; intros n ds; cbn [all_draws].
  - split; [intros [<-|[]]; split; [reflexivity | constructor]|]. intros (L & _). destruct ds; [left; reflexivity | discriminate L].
  - rewrite in_concat. split.
    + intros (l & I & J). apply in_map_iff in I as (r & <- & I). apply in_map_iff in J as (m & <- & J). apply IH in J as (L & F). apply rows_spec in I. split; [cbn; lia | constructor; assumption].
    + intros (L & F). destruct ds as [|r ds]; [discriminate L|]. inversion F as [|? ? R1 F1]; subst. exists (map (cons r) (all_draws k n)). split; [apply in_map_iff; exists r; split; [reflexivity | apply rows_spec, R1]|]. apply in_map, IH. split; [cbn in L; lia | exact F1].
Qed.
Lemma draws_mean : forall k n (h : list nat -> R), total (map (fun ds => total (map h ds)) (all_draws k n)) = INR k * (2 ^ n) ^ (pred k) * total (map h (all_rows n)).
Proof.
  induction k as [|k IH]; intros n h; [cbn; lra|]. cbn [all_draws]. set (D := all_draws k n). assert (C : forall l, total (map (fun ds => total (map h ds)) (concat (map (fun r => map (cons r) D) l))) = INR (length D) * total (map h l) + INR (length l) * total (map (fun ds => total (map h ds)) D)).
  { induction l as [|r l IHl]; [cbn; lra|]. cbn [map concat length]. rewrite map_app, total_app, IHl, map_map. cbn [map total]. rewrite S_INR. assert (Q : total (map (fun x => h r + total (map h x)) D) = INR (length D) * h r + total (map (fun ds => total (map h ds)) D)) by (clear; induction D as [|d D IH]; cbn [map total length]; [cbn; lra|]; rewrite IH, S_INR; lra). rewrite Q. lra. }
  rewrite C. unfold D. rewrite IH, draws_length, rows_length, !pow_INR. replace (INR 2) with 2 by (cbn; lra). cbn [pred]. rewrite (Nat.mul_comm k n), pow_mult. destruct k as [|k]; [cbn; lra|]. cbn [pred]. rewrite (S_INR (S k)). rewrite <- tech_pow_Rmult. ring.
Qed.
Definition values (n : nat) (d : list (Z * R)) : list R := map (value d) (seq 0 n).
Lemma idot_values : forall n d e, idot (values n d) (values n e) = inner d e n.
Proof. intros n d e. unfold values, inner. generalize (seq 0 n) as l. induction l as [|j l IH]; [reflexivity|]. cbn [map idot total]. rewrite IH. reflexivity. Qed.
Lemma sdot_zero : forall row l, sdot row (map (fun _ : nat => 0) l) = 0.
Proof. induction row as [|b row IH]; intros [|j l]; try reflexivity. cbn [map sdot]. rewrite IH. lra. Qed.
Lemma sdot_plus : forall row (f g : nat -> R) l, sdot row (map (fun j => f j + g j) l) = sdot row (map f l) + sdot row (map g l).
Proof. induction row as [|b row IH]; intros f g [|j l]; cbn [map sdot]; try lra. rewrite IH. lra. Qed.
Lemma sdot_unit : forall row s n i x, length row = n -> sdot row (map (fun j => if (i =? j)%nat then x else 0) (seq s n)) = if (s <=? i)%nat && (i <? s + n)%nat then sign (nth (i - s) row 0%nat) * x else 0.
Proof.
  induction row as [|b row IH]; intros s n i x L; cbn [length] in L; subst n; cbn [seq map sdot].
  - destruct ((s <=? i)%nat && (i <? s + 0)%nat) eqn:E; [exfalso; apply Bool.andb_true_iff in E as (E1 & E2); apply Nat.leb_le in E1; apply Nat.ltb_lt in E2; lia | reflexivity].
  - rewrite IH by reflexivity. destruct (Nat.eqb_spec i s) as [->|NE].
    + rewrite Nat.sub_diag. cbn [nth]. replace ((s <=? s)%nat && (s <? s + S (length row))%nat) with true by (symmetry; apply Bool.andb_true_iff; split; [apply Nat.leb_le; lia | apply Nat.ltb_lt; lia]). replace ((S s <=? s)%nat) with false by (symmetry; apply Nat.leb_gt; lia). cbn [andb]. lra.
    + destruct ((S s <=? i)%nat && (i <? S s + length row)%nat) eqn:E.
      * apply Bool.andb_true_iff in E as (E1 & E2). apply Nat.leb_le in E1. apply Nat.ltb_lt in E2. replace ((s <=? i)%nat && (i <? s + S (length row))%nat) with true by (symmetry; apply Bool.andb_true_iff; split; [apply Nat.leb_le; lia | apply Nat.ltb_lt; lia]).
        replace (i - s)%nat with (S (i - S s)) by lia. cbn [nth]. lra.
      * replace ((s <=? i)%nat && (i <? s + S (length row))%nat) with false; [lra|]. symmetry. apply Bool.andb_false_iff. apply Bool.andb_false_iff in E as [E|E]; [apply Nat.leb_gt in E; left; apply Nat.leb_gt; lia | apply Nat.ltb_ge in E; right; apply Nat.ltb_ge; lia].
Qed.
Lemma along_sdot : forall n k d row, document n d -> length row = n -> along row k d = sdot row (values n d) / sqrt (INR k).
Proof.
  intros n k d row (_ & F) L. unfold along. f_equal. unfold values. induction F as [|[i x] d I F IH]; [cbn [map total]; rewrite (map_ext _ (fun _ => 0)) by (intros j; reflexivity); symmetry; apply sdot_zero|]. cbn [map total fst snd] in *. rewrite IH.
  rewrite (map_ext (value ((i, x) :: d)) (fun j => (if (Z.to_nat i =? j)%nat then x else 0) + value d j)).
  - rewrite sdot_plus, sdot_unit by exact L. replace ((0 <=? Z.to_nat i)%nat && (Z.to_nat i <? 0 + n)%nat) with true by (symmetry; apply Bool.andb_true_iff; split; [apply Nat.leb_le; lia | apply Nat.ltb_lt; lia]). rewrite Nat.sub_0_r. reflexivity.
  - intros j. unfold value. cbn [filter fst]. destruct (Z.eqb_spec i (Z.of_nat j)) as [E|E], (Nat.eqb_spec (Z.to_nat i) j) as [E'|E']; try (exfalso; lia); cbn [map total snd]; lra.
Qed.
