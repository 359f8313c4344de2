(** C136: the forms of the rows of a sharded corpus *)
From Coq Require Import ZifyBool QArith Qabs Lqa.
From Verif Require Import Base Matutils_Model Matutils_Properties Utils_Model LineCorpora_Proofs ShardedCorpus_Model ShardedCorpus_Proofs ShardedCorpus_Properties ShardFormat_Model.
Close Scope Q_scope.
Local Open Scope nat_scope.

(** ** What a form says of a row *)
(** The entries of a row above a bound, by increasing index *)
Definition entries_of (bound : Q) (row : list Q) (doc : bow) : Prop :=
  StronglySorted lt (map fst doc) /\ forall i w, In (i, w) doc <-> nth_error row i = Some w /\ (bound < Qabs w)%Q.
Definition tiny : Q := 1 # 1000000000.
Inductive form : Type := FVec | FMat | FCsr | FBow | FGen.
(** The form for one document, and for several *)
Definition one_form (c : settings) : form :=
  match f_ser c, f_gensim c, f_ret c with
  | false, true, _ => FBow | false, false, false => FVec | false, false, true => FCsr
  | true, true, _ => FGen | true, false, false => FMat | true, false, true => FCsr
  end.
Definition many_form (c : settings) : form := match f_gensim c, f_ret c with true, _ => FGen | false, false => FMat | false, true => FCsr end.
Definition bound (c : settings) : Q := if f_ser c then 0 else tiny.
(** [x] has the form [f] and tells of [rows]. *)
Definition tells (bd : Q) (f : form) (rows : list (list Q)) (x : shown) : Prop :=
  match f, x with
  | FVec, Vec row => rows = [row]
  | FMat, Mat rs => rs = rows
  | FCsr, Csr rs => rs = rows
  | FBow, Bow doc => exists row, rows = [row] /\ entries_of bd row doc
  | FGen, Gen ds => Forall2 (fun row d => exists doc, d = Ok doc /\ entries_of bd row doc) rows ds
  | _, _ => False
  end.
Lemma stored_entries : forall row, entries_of 0 row (stored row).
Proof.
  intros row. unfold stored. split.
  - assert (G : forall k, StronglySorted lt (map fst (filter (fun iv : nat * Q => negb (Qeq_bool (snd iv) 0)) (combine (seq k (length row)) row))) /\ Forall (fun j => k <= j) (map fst (filter (fun iv : nat * Q => negb (Qeq_bool (snd iv) 0)) (combine (seq k (length row)) row)))); [|exact (proj1 (G 0))].
    induction row as [|x row IH]; intros k; cbn [length seq combine filter]; [split; constructor|]. destruct (IH (S k)) as (A & B). cbn [snd].
    assert (B' : Forall (fun j => k <= j) (map fst (filter (fun iv : nat * Q => negb (Qeq_bool (snd iv) 0)) (combine (seq (S k) (length row)) row)))) by (eapply Forall_impl; [|exact B]; intros; cbn in *; lia).
    destruct (negb (Qeq_bool x 0)); cbn [map fst]; [|split; assumption]. split; [constructor; [exact A | exact B] | constructor; [lia | exact B']].
  - intros i w. rewrite filter_In. cbn [snd].
    assert (C : forall k, In (i, w) (combine (seq k (length row)) row) <-> k <= i /\ nth_error row (i - k) = Some w).
    { induction row as [|x row IH]; intros k; cbn [length seq combine In]; [split; [intros [] | intros (_ & H); destruct (i - k); discriminate H]|]. rewrite (IH (S k)). split.
      - intros [E|(L & E)]; [injection E as <- <-; rewrite Nat.sub_diag; split; [lia | reflexivity]|]. split; [lia|]. replace (i - k) with (S (i - S k)) by lia. exact E.
      - intros (L & E). destruct (i - k) as [|n] eqn:D; [left; cbn in E; injection E as ->; f_equal; lia|]. right. split; [lia|]. replace (i - S k) with n by lia. exact E. }
    rewrite (C 0), Nat.sub_0_r. assert (Z : negb (Qeq_bool w 0) = true <-> (0 < Qabs w)%Q).
    { rewrite Bool.negb_true_iff. split.
      - intros H. destruct (Qlt_le_dec 0 (Qabs w)) as [L|L]; [exact L|]. exfalso. apply (Qeq_bool_neq w 0 H). pose proof (Qle_Qabs w). pose proof (Qle_Qabs (- w)) as H1. rewrite Qabs_opp in H1. lra.
      - intros L. destruct (Qeq_bool w 0) eqn:E; [|reflexivity]. apply Qeq_bool_eq in E. exfalso. rewrite E in L. cbn in L. lra. }
    rewrite Z. split; [intros ((_ & A) & B); split; assumption | intros (A & B); split; [split; [lia | exact A] | exact B]].
Qed.
Lemma format_one : forall c row, exists x, getitem_format c (raw_int (f_ser c) row) = Ok x /\ tells (bound c) (one_form c) [row] x.
Proof.
  intros [ser g ret] row. unfold getitem_format, raw_int, one_form, bound. cbn [f_ser f_gensim f_ret].
  destruct ser, g, ret; cbn [negb sparse2gensim dense2gensim]; eexists; (split; [reflexivity|]); cbn [tells map]; try reflexivity; try (exists row; split; [reflexivity | apply full2sparse_exact]);
  constructor; try constructor; eexists; (split; [reflexivity | apply stored_entries]).
Qed.
Lemma format_many : forall c rows, exists x, getitem_format c (raw_rows (f_ser c) rows) = Ok x /\ tells (bound c) (many_form c) rows x.
Proof.
  intros [ser g ret] rows. unfold getitem_format, raw_rows, many_form, bound. cbn [f_ser f_gensim f_ret].
  destruct ser, g, ret; cbn [negb sparse2gensim dense2gensim]; eexists; (split; [reflexivity|]); cbn [tells]; try reflexivity;
  induction rows as [|r rows IH]; cbn [map]; constructor; try exact IH; eexists; (split; [reflexivity|]); try apply stored_entries; apply full2sparse_exact.
Qed.

Section Requests.
Context (c : settings) (zero : list Q).
Notation csr := (f_ser c).
(** A history without [resize_shards]; with it if the forms are those of the files *)
Definition fitting (o : op) : Prop := match o with OResize k => (0 <= k)%Z /\ f_gensim c = false /\ f_ret c = f_ser c | _ => True end.
Lemma fitting_allowed : forall ops, Forall fitting ops -> Forall allowed ops.
Proof. intros ops F. eapply Forall_impl; [|exact F]. intros [] H; cbn in *; tauto. Qed.
(** After any such history, a request for one document, for several, or for a slice tells of the rows of the corpus, in the form that the settings ask for. *)
Theorem one_document : forall (m : nat) (rows : list (list Q)) (ops : list op) (i : nat) (row : list Q), 1 <= m -> Forall fitting ops -> nth_error rows i = Some row ->
  exists x, f_int c csr (Z.of_nat i) (after zero csr m rows ops) = Ok x /\ tells (bound c) (one_form c) [row] x.
Proof.
  intros m rows ops i row M F E. unfold f_int, request. rewrite (sharded_int zero csr m rows ops i row M (fitting_allowed _ F) E). cbn [rbind]. apply format_one.
Qed.
Theorem many_documents : forall (m : nat) (rows : list (list Q)) (ops : list op), 1 <= m -> Forall fitting ops ->
  (forall a b, a < length rows -> a <= b <= length rows -> exists x, f_slice c csr zero (Z.of_nat a) (Z.of_nat b) (after zero csr m rows ops) = Ok x /\ tells (bound c) (many_form c) (firstn (b - a) (skipn a rows)) x) /\
  (forall l, l <> [] -> (forall i, In i l -> i < length rows) -> exists rs x, f_list c csr (map Z.of_nat l) (after zero csr m rows ops) = Ok x /\ Forall2 (fun i r => nth_error rows i = Some r) l rs /\ tells (bound c) (many_form c) rs x).
Proof.
  intros m rows ops M F. apply fitting_allowed in F. split.
  - intros a b La Lb. destruct (sharded_slice zero csr m rows ops a b M F La Lb) as (rs & E & L & N). unfold f_slice, request. rewrite E. cbn [rbind].
    assert (R : rs = firstn (b - a) (skipn a rows)).
    { clear E. apply nth_ext with (d := []) (d' := []); [rewrite firstn_length, skipn_length; lia|]. intros j Hj. rewrite L in Hj. specialize (N j Hj).
      assert (N' : nth_error (firstn (b - a) (skipn a rows)) j = nth_error rows (a + j)). { rewrite nth_error_firstn_ by lia. apply nth_error_skipn_. }
      rewrite <- N' in N. destruct (nth_error rs j) as [r|] eqn:E1; [|apply nth_error_None in E1; lia]. rewrite (nth_error_nth _ _ _ E1). symmetry in N. rewrite (nth_error_nth _ _ _ N). reflexivity. }
    rewrite <- R. apply format_many.
  - intros l NE B. destruct (sharded_list zero csr m rows ops (map Z.of_nat l) M F) as (rs & E & F2).
    + left. intros K. apply map_eq_nil in K. contradiction.
    + intros i Hi. apply in_map_iff in Hi as (j & <- & Hj). specialize (B j Hj). lia.
    + destruct (format_many c rs) as (x & Ex & T). exists rs, x. unfold f_list, request. rewrite E. cbn [rbind]. split; [exact Ex|]. split; [|exact T].
      clear -F2. remember (map Z.of_nat l) as zl eqn:El. revert l El. induction F2 as [|i r zl rs H F2 IH]; intros [|j l] El; try discriminate; constructor; cbn [map] in El; injection El as -> ->; [rewrite Nat2Z.id in H; exact H | apply IH; reflexivity].
Qed.
(** Iterating gives each document in the form of one document. *)
Theorem iterating : forall (m : nat) (rows : list (list Q)) (ops : list op), 1 <= m -> Forall fitting ops ->
  exists xs, f_iter c csr (after zero csr m rows ops) = Ok xs /\ Forall2 (fun row x => tells (bound c) (one_form c) [row] x) rows xs.
Proof.
  intros m rows ops M F. unfold f_iter. rewrite (proj1 (sharded_iter zero csr m rows ops M (fitting_allowed _ F))). cbn [rbind]. clear F. induction rows as [|r rows IH]; [exists []; split; [reflexivity | constructor]|].
  destruct IH as (xs & E & H). destruct (format_one c r) as (x & Ex & T). exists (x :: xs). cbn [rmapM]. rewrite Ex. cbn [rbind]. rewrite E. split; [reflexivity | constructor; assumption].
Qed.
End Requests.

(** ** Bags of words come back *)
Definition tidy (bd : Q) (dim : nat) (doc : list (Z * Q)) : Prop :=
  StronglySorted Z.lt (map fst doc) /\ forall i w, In (i, w) doc -> (0 <= i < Z.of_nat dim)%Z /\ (bd < Qabs w)%Q.
Lemma sorted_nodup : forall (l : list Z), StronglySorted Z.lt l -> NoDup l.
Proof. intros l S. induction S as [|x l S IH F]; constructor; [|exact IH]. intros I. rewrite Forall_forall in F. specialize (F x I). lia. Qed.
Lemma entries_unique : forall (d d' : bow), StronglySorted lt (map fst d) -> StronglySorted lt (map fst d') -> (forall e, In e d <-> In e d') -> d = d'.
Proof.
  induction d as [|[i w] d IH]; intros [|[j v] d'] S S' H; [reflexivity | exfalso; apply (proj2 (H (j, v))); left; reflexivity | exfalso; apply (proj1 (H (i, w))); left; reflexivity|].
  cbn [map fst] in *. inversion S as [|? ? S1 F1]; inversion S' as [|? ? S2 F2]; subst. rewrite Forall_forall in F1, F2.
  assert (A1 : forall e, In e d -> i < fst e) by (intros e He; apply F1, in_map, He). assert (A2 : forall e, In e d' -> j < fst e) by (intros e He; apply F2, in_map, He).
  assert (E : (i, w) = (j, v)).
  { destruct (proj1 (H (i, w)) (or_introl eq_refl)) as [E|E]; [symmetry; exact E|]. destruct (proj2 (H (j, v)) (or_introl eq_refl)) as [E'|E']; [exact E'|]. specialize (A2 _ E). specialize (A1 _ E'). cbn [fst] in *. lia. }
  injection E as <- <-. f_equal. apply IH; [exact S1 | exact S2|]. intros e. split; intros He.
  - destruct (proj1 (H e) (or_intror He)) as [<-|K]; [specialize (A1 _ He); cbn in A1; lia | exact K].
  - destruct (proj2 (H e) (or_intror He)) as [<-|K]; [specialize (A2 _ He); cbn in A2; lia | exact K].
Qed.
Lemma rows_tell : forall (c : settings) (dim : nat) (corpus : list (list (Z * Q))) (m : nat) (zero : list Q), Forall (tidy (bound c) dim) corpus ->
  exists rows, sc_build (f_ser c) m dim corpus = Ok (after zero (f_ser c) m rows []) /\ length rows = length corpus /\
  forall i doc row entries, nth_error corpus i = Some doc -> nth_error rows i = Some row -> entries_of (bound c) row entries -> map (fun e => (Z.of_nat (fst e), snd e)) entries = doc.
Proof.
  intros c dim corpus m zero T. destruct (sharded_build (f_ser c) m dim corpus) as (rows & E & F2).
  { intros doc i w Hd Hi. rewrite Forall_forall in T. exact (proj1 (proj2 (T doc Hd) i w Hi)). }
  exists rows. split; [exact E|]. split; [clear -F2; induction F2; cbn; congruence|].
  intros i doc row entries Ed Er (S & M). clear E.
  assert (R : length row = dim /\ (forall l1 i w l2, doc = l1 ++ (Z.of_nat i, w) :: l2 -> ~ In (Z.of_nat i) (map fst l2) -> nth_error row i = Some w) /\ (forall i, i < dim -> ~ In (Z.of_nat i) (map fst doc) -> nth_error row i = Some 0%Q)).
  { clear -F2 Ed Er. revert i Ed Er. induction F2 as [|d r ds rs H F2 IH]; intros [|i] Ed Er; try discriminate; [injection Ed as ->; injection Er as ->; exact H | exact (IH i Ed Er)]. }
  destruct R as (L & R1 & R2). assert (Td : tidy (bound c) dim doc) by (rewrite Forall_forall in T; apply T; eapply nth_error_In; exact Ed). destruct Td as (Sd & Td).
  assert (NN : (0 <= bound c)%Q) by (unfold bound, tiny; destruct (f_ser c); discriminate).
  assert (Q1 : entries = map (fun e => (Z.to_nat (fst e), snd e)) doc).
  { apply entries_unique; [exact S| |].
    - rewrite map_map. cbn [fst]. assert (NNd : forall z, In z (map fst doc) -> (0 <= z)%Z) by (intros z Hz; apply in_map_iff in Hz as ((z' & w) & <- & Hz); exact (proj1 (proj1 (Td z' w Hz)))).
      clear -Sd NNd. induction doc as [|[z w] doc IH]; [constructor|]. cbn [map fst] in *. inversion Sd as [|? ? Sd' Fd]; subst. constructor; [apply IH; [exact Sd' | intros y Hy; apply NNd; right; exact Hy]|]. apply Forall_forall. intros k Hk. apply in_map_iff in Hk as ([y v] & <- & Hy). cbn [fst]. rewrite Forall_forall in Fd. assert (I : In y (map fst doc)) by (apply (in_map fst) in Hy; exact Hy). specialize (Fd y I). pose proof (NNd z (or_introl eq_refl)). lia.
    - intros [k w]. rewrite M, in_map_iff. split.
      + intros (N & B). assert (Lk : k < dim) by (rewrite <- L; apply nth_error_Some; congruence). destruct (in_dec eq_dec (Z.of_nat k) (map fst doc)) as [I|I].
        * apply in_map_iff in I as ((z & v) & Ez & Hz). cbn [fst] in Ez. subst z. pose proof Hz as Hz'. apply in_split in Hz' as (l1 & l2 & El). rewrite (R1 l1 k v l2 El) in N; [injection N as <-; exists (Z.of_nat k, v); cbn [fst snd]; rewrite Nat2Z.id; split; [reflexivity | exact Hz]|].
          pose proof (sorted_nodup _ Sd) as ND. rewrite El, map_app in ND. cbn [map fst] in ND. apply NoDup_remove_2 in ND. intros K. apply ND. apply in_or_app. right. exact K.
        * rewrite (R2 k Lk I) in N. injection N as <-. exfalso. cbn in B. lra.
      + intros ((z & v) & Ez & Hz). cbn [fst snd] in Ez. injection Ez as <- <-. destruct (Td z v Hz) as (Rz & Bz). split; [|exact Bz]. pose proof Hz as Hz'. apply in_split in Hz' as (l1 & l2 & El). apply (R1 l1 (Z.to_nat z) v l2); rewrite Z2Nat.id by lia; [exact El|].
        pose proof (sorted_nodup _ Sd) as ND. rewrite El, map_app in ND. cbn [map fst] in ND. apply NoDup_remove_2 in ND. intros K. apply ND. apply in_or_app. right. exact K. }
  rewrite Q1, map_map. rewrite <- (map_id doc) at 2. apply map_ext_in. intros [z w] Hz. cbn [fst snd]. rewrite Z2Nat.id by exact (proj1 (proj1 (Td z w Hz))). reflexivity.
Qed.
(** A corpus of bags of words by increasing id, with weights above the bound, that is asked for bags of words gives them: each in a list of its own if the files are sparse. *)
Definition as_bow (doc : list (Z * Q)) : bow := map (fun e => (Z.to_nat (fst e), snd e)) doc.
Theorem bags_come_back : forall (c : settings) (dim : nat) (corpus : list (list (Z * Q))) (m : nat) (zero : list Q), f_gensim c = true -> 1 <= m -> Forall (tidy (bound c) dim) corpus ->
  exists rows, sc_build (f_ser c) m dim corpus = Ok (after zero (f_ser c) m rows []) /\ length rows = length corpus /\
  forall ops i doc, Forall (fitting c) ops -> nth_error corpus i = Some doc ->
  f_int c (f_ser c) (Z.of_nat i) (after zero (f_ser c) m rows ops) = Ok (if f_ser c then Gen [Ok (as_bow doc)] else Bow (as_bow doc)).
Proof.
  intros c dim corpus m zero G M T. destruct (rows_tell c dim corpus m zero T) as (rows & E & L & H). exists rows. split; [exact E|]. split; [exact L|]. intros ops i doc F Ed.
  assert (Li : i < length rows) by (rewrite L; apply nth_error_Some; congruence). destruct (nth_error rows i) as [row|] eqn:Er; [|apply nth_error_None in Er; lia].
  assert (HB : forall entries, entries_of (bound c) row entries -> entries = as_bow doc).
  { intros entries He. rewrite <- (H i doc row entries Ed Er He). unfold as_bow. rewrite map_map. cbn [fst snd]. rewrite <- (map_id entries) at 1. apply map_ext. intros [k w]. cbn [fst snd]. rewrite Nat2Z.id. reflexivity. }
  destruct (one_document c zero m rows ops i row M F Er) as (x & Ex & Tx). rewrite Ex. f_equal. unfold one_form in Tx. rewrite G in Tx. destruct (f_ser c); cbn [tells] in Tx; destruct x as [|? |? |d|ds]; try contradiction.
  - inversion Tx as [|? ? ? ? (d & -> & Hd) F2]; subst. inversion F2; subst. rewrite (HB d Hd). reflexivity.
  - destruct Tx as (r & Er' & Hd). injection Er' as <-. rewrite (HB d Hd). reflexivity.
Qed.
Print Assumptions one_document.
Print Assumptions many_documents.
Print Assumptions iterating.
Print Assumptions bags_come_back.

(** ** Resizing *)
Lemma rmapM_const : forall {A B} (f : A -> result B) l r, (forall x, In x l -> f x = r) -> l <> [] -> rmapM f l = match r with Ok b => Ok (repeat b (length l)) | Err e => Err e end.
Proof.
  intros A B f l r H NE. destruct l as [|x l]; [contradiction|]. clear NE. cbn [rmapM]. rewrite (H x (or_introl eq_refl)). destruct r as [b|e]; [|reflexivity]. cbn [rbind].
  assert (E : rmapM f l = Ok (repeat b (length l))). { assert (H' : forall y, In y l -> f y = Ok b) by (intros y Hy; apply H; right; exact Hy). clear H. induction l as [|y l IH]; [reflexivity|]. cbn [rmapM]. rewrite (H' y (or_introl eq_refl)). cbn [rbind]. rewrite IH by (intros z Hz; apply H'; right; exact Hz). reflexivity. }
  rewrite E. reflexivity.
Qed.
(** What resizing writes: a corpus that gives bags of words cannot be resized; otherwise the new files are of the kind of the retrieved form, not of the kind of the old files. *)
Theorem resize_kind : forall (c : settings) (zero : list Q) (m : nat) (rows : list (list Q)) (ops : list op) (k : nat), 1 <= m -> 1 <= k -> Forall (fitting c) ops -> rows <> [] ->
  if f_gensim c then f_resize c (f_ser c) zero (Z.of_nat k) (after zero (f_ser c) m rows ops) = Err TypeError
  else exists s, f_resize c (f_ser c) zero (Z.of_nat k) (after zero (f_ser c) m rows ops) = Ok (f_ret c, s) /\ s = after zero (f_ser c) m rows (ops ++ [OResize (Z.of_nat k)]).
Proof.
  intros c zero m rows ops k M K F NE. pose proof (fitting_allowed c ops F) as A.
  destruct (after_inv zero rows m (f_ser c) ops M A) as (m' & ns & I). destruct (resize_ok zero rows m' ns (f_ser c) _ k K I) as (s' & ns' & E & I').
  assert (ES : after zero (f_ser c) m rows (ops ++ [OResize (Z.of_nat k)]) = s') by (unfold after; rewrite fold_left_app; cbn [fold_left step]; fold (after zero (f_ser c) m rows ops); rewrite E; reflexivity).
  assert (FN : s_files s' <> []).
  { intros K0. assert (A' : Forall allowed (ops ++ [OResize (Z.of_nat k)])) by (apply Forall_app; split; [exact A | constructor; [cbn; lia | constructor]]).
    destruct rows as [|r rows]; [contradiction|]. pose proof (sharded_int zero (f_ser c) m (r :: rows) (ops ++ [OResize (Z.of_nat k)]) 0 r M A' eq_refl) as G. rewrite ES in G. clear -K0 I' G. destruct s' as [fl sz nd nsh of sp cu]. cbn in K0. subst fl.
    pose proof (I_files _ _ _ _ _ I') as Q. cbn in Q. destruct ns'; cbn in Q; try discriminate; pose proof I' as [ ]; cbn in *; try lia; try discriminate. }
  unfold f_resize. rewrite E. destruct c as [ser g ret]. cbn [f_gensim f_ser f_ret] in *.
  assert (NK : forall rs, new_kind (mkSettings ser g ret) ser rs = if g then Err TypeError else Ok ret).
  { intros rs. unfold new_kind, getitem_format, raw_rows. cbn [f_ser f_gensim f_ret]. destruct ser, g, ret; reflexivity. }
  rewrite (rmapM_const _ (s_files s') (if g then Err TypeError else Ok ret)) by (try exact FN; intros rs _; apply NK). destruct g; [reflexivity|].
  exists s'. cbn [rbind]. split; [|symmetry; exact ES]. destruct (s_files s'); [contradiction | reflexivity].
Qed.
Print Assumptions resize_kind.

(** ** The number of features *)
(** What a corpus says of itself, before a transformation and its corpus are asked *)
Definition own (s : source) : option nat :=
  match s with Src a b c d _ => match a, b, c, d with Some n, _, _, _ => Some n | _, Some n, _, _ => Some n | _, _, Some n, _ => Some n | _, _, _, n => n end end.
Inductive silent : source -> Prop :=
| silent_end : silent (Src None None None None None)
| silent_both : forall obj corpus, silent obj -> silent corpus -> silent (Src None None None None (Some (obj, corpus))).
Inductive says : source -> nat -> Prop :=
| says_own : forall s n, own s = Some n -> says s n
| says_obj : forall s obj corpus n, own s = None -> s = Src None None None None (Some (obj, corpus)) -> says obj n -> says s n
| says_corpus : forall s obj corpus n, own s = None -> s = Src None None None None (Some (obj, corpus)) -> silent obj -> says corpus n -> says s n.
Fixpoint depth (s : source) : nat := match s with Src _ _ _ _ (Some (o, c)) => S (Nat.max (depth o) (depth c)) | _ => 0 end.
Lemma guess_own : forall d s n, own s = Some n -> guess d s = Ok n.
Proof. intros d s m H. destruct s as [[?|] [?|] [?|] [?|] t]; cbn in *; congruence. Qed.
Lemma guess_errs : forall k d s e, depth s <= k -> guess d s = Err e -> e = TypeError.
Proof.
  induction k as [|k IH]; intros d s e L H; destruct s as [[?|] [?|] [?|] [?|] [[o c]|]]; cbn in *; try congruence; try lia; try (destruct d as [[|?]|]; congruence).
  destruct (guess d o) as [n|eo] eqn:Eo; [discriminate|]. pose proof (IH d o eo ltac:(lia) Eo). subst eo. apply (IH d c e); [lia | exact H].
Qed.
Lemma guess_silent : forall k s, depth s <= k -> (guess None s = Err TypeError <-> silent s).
Proof.
  induction k as [|k IH]; intros s L; destruct s as [[?|] [?|] [?|] [?|] [[o c]|]]; cbn in L; try lia; cbn [guess]; try (split; [discriminate | intros H; inversion H]); try (split; [constructor | reflexivity]).
  pose proof (IH o ltac:(lia)) as Io. pose proof (IH c ltac:(lia)) as Ic. destruct (guess None o) as [no|eo] eqn:Eo.
  - split; [discriminate|]. intros H. inversion H; subst. exfalso. assert (K : Ok no = Err TypeError) by (apply Io; assumption). discriminate K.
  - pose proof (guess_errs (depth o) None o eo (le_n _) Eo). subst eo. rewrite Ic. split; [intros H; constructor; [apply Io; reflexivity | exact H] | intros H; inversion H; subst; assumption].
Qed.
Lemma guess_none : forall k s, depth s <= k -> (forall n, guess None s = Ok n <-> says s n).
Proof.
  induction k as [|k IH]; intros s L n; destruct (own s) as [n'|] eqn:Ow.
  1, 3: rewrite (guess_own None s n' Ow); split; [intros [= ->]; apply says_own; exact Ow | intros H; inversion H; congruence].
  - destruct s as [[?|] [?|] [?|] [?|] [[o c]|]]; cbn in *; try discriminate; try lia. split; [discriminate|]. intros H; inversion H; subst; cbn in *; congruence.
  - destruct s as [[?|] [?|] [?|] [?|] [[o c]|]]; cbn in L, Ow; try discriminate; cbn [guess].
    + pose proof (IH o ltac:(lia)) as Io. pose proof (IH c ltac:(lia)) as Ic. pose proof (guess_silent (depth o) o (le_n _)) as So. destruct (guess None o) as [no|eo] eqn:Eo.
      * split; [intros [= ->]; eapply says_obj; [exact Ow | reflexivity | apply Io; reflexivity]|]. intros H. inversion H as [? ? A|? ? ? ? A B C|? ? ? ? A B C D]; subst; [cbn in A; discriminate| |]; injection B as <- <-; [apply Io in C; exact C|]. apply So in C. discriminate C.
      * pose proof (guess_errs (depth o) None o eo (le_n _) Eo). subst eo. rewrite Ic. split; [intros H; eapply says_corpus; [exact Ow | reflexivity | apply So; reflexivity | exact H]|].
        intros H. inversion H as [? ? A|? ? ? ? A B C|? ? ? ? A B C D]; subst; [cbn in A; discriminate| |]; injection B as <- <-; [apply Io in C; discriminate C | exact D].
    + split; [discriminate|]. intros H; inversion H; subst; cbn in *; congruence.
Qed.
(** Without a dimension given: what the corpus says, its transformation before the corpus that is transformed; an exception if none says anything. *)
Theorem dimension_derived : forall (s : source), (forall n, init_dim None s = Ok n <-> says s n) /\ (init_dim None s = Err TypeError <-> silent s).
Proof.
  intros s. unfold init_dim. split; [exact (guess_none (depth s) s (le_n _)) | exact (guess_silent (depth s) s (le_n _))].
Qed.
(** With one given: what the corpus or a chain of transformations says; the one given only if that says nothing, and then the corpus that is transformed is not asked. *)
Inductive chain : source -> option nat -> Prop :=
| chain_own : forall s n, own s = Some n -> chain s (Some n)
| chain_obj : forall s obj corpus r, own s = None -> s = Src None None None None (Some (obj, corpus)) -> chain obj r -> chain s r
| chain_end : forall s, s = Src None None None None None -> chain s None.
Theorem dimension_given : forall (s : source) (r : option nat) (d : nat), chain s r -> init_dim (Some (S d)) s = Ok (match r with Some n => n | None => S d end).
Proof.
  unfold init_dim. intros s r d H. induction H as [s n O|s obj corpus r O -> H IH|s ->]; [apply guess_own; exact O| |reflexivity]. cbn [guess]. rewrite IH. reflexivity.
Qed.
Theorem chain_total : forall (s : source), exists r, chain s r.
Proof.
  intros s. assert (G : forall k s, depth s <= k -> exists r, chain s r); [|exact (G (depth s) s (le_n _))]. clear s. induction k as [|k IH]; intros s L; destruct (own s) as [n|] eqn:O; try (exists (Some n); apply chain_own; exact O); destruct s as [[?|] [?|] [?|] [?|] [[o c]|]]; cbn in L, O; try discriminate; try lia; try (exists None; apply chain_end; reflexivity).
  destruct (IH o ltac:(lia)) as (r & H). exists r. eapply chain_obj; [reflexivity | reflexivity | exact H].
Qed.
Print Assumptions dimension_derived.
Print Assumptions dimension_given.

(** ** Cases *)
Definition rows3 : list (list Q) := [[1%Q; 0%Q; (1#2)%Q]; [0%Q; 0%Q; 0%Q]; [0%Q; (1#10000000000)%Q; (-3)%Q]].
Definition s3 (csr : bool) : @sc (list Q) := after [] csr 2 rows3 [].
Definition bows3 : list (list (Z * Q)) := [[(0%Z, 1%Q); (2%Z, (1#2)%Q)]; []].
Example forms_ex : f_int (mkSettings false false false) false 0 (s3 false) = Ok (Vec [1%Q; 0%Q; (1#2)%Q])
  /\ f_int (mkSettings false false true) false 0 (s3 false) = Ok (Csr [[1%Q; 0%Q; (1#2)%Q]])
  /\ f_int (mkSettings true false false) true 0 (s3 true) = Ok (Mat [[1%Q; 0%Q; (1#2)%Q]])
  /\ f_int (mkSettings false true false) false 2 (s3 false) = Ok (Bow [(2, (-3)%Q)])
  /\ f_slice (mkSettings false true true) false [] 0 2 (s3 false) = Ok (Gen [Ok [(0, 1%Q); (2, (1#2)%Q)]; Ok []])
  /\ f_list (mkSettings true true false) true [2; 0]%Z (s3 true) = Ok (Gen [Ok [(1, (1#10000000000)%Q); (2, (-3)%Q)]; Ok [(0, 1%Q); (2, (1#2)%Q)]]).
Proof. repeat split; vm_compute; reflexivity. Qed.
Example bags_ex : Forall (tidy tiny 3) bows3 /\ sc_build false 2 3 bows3 = Ok (after [] false 2 [[1%Q; 0%Q; (1#2)%Q]; [0%Q; 0%Q; 0%Q]] []).
Proof.
  split; [|vm_compute; reflexivity]. constructor; [|constructor; [|constructor]]; (split; [cbn; repeat constructor|]); intros i w H; cbn in H; [|contradiction]. destruct H as [H|[H|[]]]; injection H as <- <-; (split; [lia | reflexivity]).
Qed.
Example resize_ex : exists s, f_resize (mkSettings false false true) false [] 3 (s3 false) = Ok (true, s) /\ s_files s = [rows3].
Proof. eexists. split; vm_compute; reflexivity. Qed.
Definition plain : source := Src None None None None None.
Example dimension_ex : init_dim None (Src None None None None (Some (plain, Src None (Some 7) (Some 4) None None))) = Ok 7 /\ init_dim None (Src None None None None (Some (plain, plain))) = Err TypeError
  /\ init_dim (Some 5) plain = Ok 5.
Proof. repeat split. Qed.

(** ** Known failures *)
(** Iterating over a corpus of sparse files that is to give bags of words gives no bags of words. *)
Theorem sparse_bags_refuted : exists xs, f_iter (mkSettings true true false) true (s3 true) = Ok xs /\ length xs = 3 /\ Forall (fun x => forall d, x <> Bow d) xs.
Proof. eexists. split; [vm_compute; reflexivity|]. split; [reflexivity|]. repeat constructor; discriminate. Qed.
(** The bags of words of dense and of sparse files differ. *)
Theorem same_bags_refuted : exists d d', f_slice (mkSettings false true false) false [] 2 3 (s3 false) = Ok (Gen [Ok d]) /\ f_slice (mkSettings true true false) true [] 2 3 (s3 true) = Ok (Gen [Ok d']) /\ length d = 1 /\ length d' = 2.
Proof. do 2 eexists. split; [vm_compute; reflexivity|]. split; [vm_compute; reflexivity|]. split; reflexivity. Qed.
(** Resizing a corpus of sparse files that gives dense rows: afterwards no row can be had. *)
Theorem resized_rows_refuted : exists k s, f_resize (mkSettings true false false) true [] 3 (s3 true) = Ok (k, s) /\ f_int (mkSettings true false false) true 0 (s3 true) <> Err AttributeErr
  /\ Forall (fun i => f_int (mkSettings true false false) k i s = Err AttributeErr) [0; 1; 2]%Z.
Proof. do 2 eexists. split; [vm_compute; reflexivity|]. split; [vm_compute; discriminate|]. repeat constructor; vm_compute; reflexivity. Qed.
(** The dimension given is not the one used, though a warning says so; and the corpus that is transformed would have known. *)
Theorem coercing_refuted : exists d n s, 0 < d /\ d <> n /\ init_dim (Some d) s = Ok n.
Proof. exists 5, 9, (Src (Some 9) None None None None). split; [lia|]. split; [discriminate | reflexivity]. Qed.
Theorem transformed_refuted : exists s, init_dim None s = Ok 9 /\ init_dim (Some 5) s = Ok 5.
Proof. exists (Src None None None None (Some (plain, Src None None None (Some 9) None))). split; reflexivity. Qed.
