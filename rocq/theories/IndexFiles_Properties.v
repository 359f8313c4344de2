(** Files of similarity indexes. *)
From Verif Require Import Base Str Phrases_Model Phrases_Proofs IndexFiles_Model.

(** ** Names *)
Lemma name_dot : forall p i, is_prefix [dot] (rev p) = false -> shard_name p i = p ++ dot :: show_nat i.
Proof. intros p i H. unfold shard_name. rewrite H. reflexivity. Qed.
Lemma show_nat_inj : forall i j, show_nat i = show_nat j -> i = j.
Proof. intros i j E. assert (X : Some i = Some j) by (rewrite <- !parse_show_nat, E; reflexivity). congruence. Qed.
Lemma no_dot : forall i, ~ In dot (show_nat i).
Proof. intros i. apply show_nat_notin. reflexivity. Qed.
Lemma split_dot : forall a b c d, a ++ dot :: b = c ++ dot :: d -> ~ In dot b -> ~ In dot d -> a = c /\ b = d.
Proof.
  induction a as [|x a IH]; intros b [|y c] d E Nb Nd; cbn in E.
  - injection E as E. subst. auto.
  - injection E as _ E. exfalso. apply Nb. rewrite E. apply in_or_app. right. left. reflexivity.
  - injection E as _ E. exfalso. apply Nd. rewrite <- E. apply in_or_app. right. left. reflexivity.
  - injection E as -> E. destruct (IH b c d E Nb Nd) as [-> ->]. auto.
Qed.
(** The name of a shard says which shard it is of which index. *)
Theorem shard_name_inj : forall p q i j, is_prefix [dot] (rev p) = false -> is_prefix [dot] (rev q) = false -> shard_name p i = shard_name q j -> p = q /\ i = j.
Proof.
  intros p q i j Hp Hq E. rewrite !name_dot in E by assumption. destruct (split_dot _ _ _ _ E (no_dot i) (no_dot j)) as [-> S]. split; [reflexivity | apply show_nat_inj, S].
Qed.
Lemma comparable : forall p q s, is_prefix p (q ++ s) = true -> is_prefix p q = true \/ is_prefix q p = true.
Proof.
  induction p as [|c p IH]; intros [|d q] s H; cbn in *; auto. apply andb_prop in H. destruct H as [E H]. rewrite E. apply N.eqb_eq in E. subst d. rewrite N.eqb_refl. cbn. apply (IH q s H).
Qed.

Section P.
Context {C : Type}.
Notation world := (world C).
Notation op := (op C).
(** ** Spec *)
(** no prefix of an index begins with that of another *)
Definition apart (ps : list pystr) : Prop := (forall p, In p ps -> is_prefix [dot] (rev p) = false) /\ forall a b p q, a <> b -> nth_error ps a = Some p -> nth_error ps b = Some q -> is_prefix p q = false.
(** saved under its prefix, or under a name that begins with no prefix *)
Definition careful (ps : list pystr) (o : op) : Prop := match o with Save _ (Some f) _ => forall p, In p ps -> is_prefix p f = false | _ => True end.
Inductive history (old : dict pystr C) (ps : list pystr) : world -> Prop :=
| H_start : history old ps (start old ps)
| H_step w o w' : history old ps w -> careful ps o -> step w o = Ok w' -> history old ps w'.

Lemma set_index_same : forall (l : list (index C)) a x, a < length l -> nth_error (set_index l a x) a = Some x.
Proof. induction l as [|y l IH]; intros [|a] x H; cbn in *; [lia | lia | reflexivity | apply IH; lia]. Qed.
Lemma set_index_other : forall (l : list (index C)) a b x, a <> b -> nth_error (set_index l a x) b = nth_error l b.
Proof. induction l as [|y l IH]; intros [|a] [|b] x H; cbn; try reflexivity; [congruence | apply IH; congruence]. Qed.
Lemma dget_filter_prefix : forall p (d : dict pystr C) f, is_prefix p f = false -> dget (filter (fun fc => negb (is_prefix p (fst fc))) d) f = dget d f.
Proof.
  intros p d f H. induction d as [|[k v] d IH]; [reflexivity|]. cbn [filter fst]. destruct (is_prefix p k) eqn:E; cbn [negb dget].
  - destruct (eq_dec k f) as [->|]; [congruence | exact IH].
  - destruct (eq_dec k f); [reflexivity | exact IH].
Qed.
Lemma dget_filter_gone : forall p (d : dict pystr C) f, is_prefix p f = true -> dget (filter (fun fc => negb (is_prefix p (fst fc))) d) f = None.
Proof.
  intros p d f H. induction d as [|[k v] d IH]; [reflexivity|]. cbn [filter fst]. destruct (is_prefix p k) eqn:E; cbn [negb dget]; [exact IH|]. destruct (eq_dec k f) as [->|]; [congruence | exact IH].
Qed.
(** every index is the one of its prefix, and every shard of one that is in use is on disk *)
Definition Inv (ps : list pystr) (w : world) : Prop :=
  map (@prefix C) (indexes w) = ps /\ forall a x i c, nth_error (indexes w) a = Some x -> alive x = true -> nth_error (shards x) i = Some c -> dget (files w) (shard_name (prefix x) i) = Some c.
Lemma the_index_ok : forall (w : world) a x, the_index w a = Ok x -> nth_error (indexes w) a = Some x /\ alive x = true.
Proof. intros w a x H. unfold the_index in H. destruct (nth_error (indexes w) a) as [y|]; [|discriminate H]. destruct (alive y) eqn:E; [|discriminate H]. injection H as <-. auto. Qed.
Lemma set_prefix : forall (l : list (index C)) a x y, nth_error l a = Some x -> prefix y = prefix x -> map (@prefix C) (set_index l a y) = map (@prefix C) l.
Proof. induction l as [|z l IH]; intros [|a] x y E P; cbn in *; try discriminate; [injection E as ->; rewrite P; reflexivity | rewrite (IH a x y E P); reflexivity]. Qed.
Lemma other_name : forall ps a b p q i, apart ps -> a <> b -> nth_error ps a = Some p -> nth_error ps b = Some q -> is_prefix p (shard_name q i) = false.
Proof.
  intros ps a b p q i [A1 A2] N Ea Eb. rewrite name_dot by (apply A1, (nth_error_In _ _ Eb)). destruct (is_prefix p (q ++ dot :: show_nat i)) eqn:E; [|reflexivity]. apply comparable in E. rewrite (A2 a b p q N Ea Eb), (A2 b a q p (not_eq_sym N) Eb Ea) in E. destruct E; discriminate.
Qed.
Lemma own_prefix : forall p i, is_prefix p (shard_name p i) = true.
Proof. intros p i. unfold shard_name. destruct (is_prefix [dot] (rev p)); apply is_prefix_app. Qed.
Lemma step_Inv : forall ps w o w', apart ps -> Inv ps w -> careful ps o -> step w o = Ok w' -> Inv ps w'.
Proof.
  intros ps w o w' A [M I] Cf S. assert (PN : forall b y, nth_error (indexes w) b = Some y -> nth_error ps b = Some (prefix y)) by (intros b y E; rewrite <- M, nth_error_map, E; reflexivity).
  assert (Pd : forall b y, nth_error (indexes w) b = Some y -> is_prefix [dot] (rev (prefix y)) = false) by (intros b y E; apply (proj1 A), (nth_error_In _ _ (PN b y E))).
  destruct o as [a c|a|a fname c|a]; cbn [step] in S; (destruct (the_index w a) as [x|e] eqn:T; [|discriminate S]); apply the_index_ok in T; destruct T as [E Al]; cbn [rbind] in S; (assert (La : a < length (indexes w)) by (apply nth_error_Some; congruence)).
  - injection S as <-. split; cbn [indexes files]; [rewrite (set_prefix _ _ _ _ E) by reflexivity; exact M|]. intros b y i d Eb Ab Es. destruct (Nat.eq_dec a b) as [<-|N].
    + rewrite set_index_same in Eb by exact La. injection Eb as <-. cbn [prefix shards] in *. rewrite dget_dset. destruct (eq_dec (shard_name (prefix x) (length (shards x))) (shard_name (prefix x) i)) as [En|Nn].
      * destruct (shard_name_inj _ _ _ _ (Pd a x E) (Pd a x E) En) as [_ <-]. rewrite nth_error_app2, Nat.sub_diag in Es by lia. cbn in Es. exact Es.
      * assert (i <> length (shards x)) by congruence. assert (i < length (shards x)) by (assert (X : i < length (shards x ++ [c])) by (apply nth_error_Some; congruence); rewrite app_length in X; cbn in X; lia). rewrite nth_error_app1 in Es by assumption. apply (I a x i d E Al Es).
    + rewrite set_index_other in Eb by exact N. rewrite dget_dset. destruct (eq_dec (shard_name (prefix x) (length (shards x))) (shard_name (prefix y) i)) as [En|Nn]; [|apply (I b y i d Eb Ab Es)].
      exfalso. pose proof (other_name ps a b _ _ i A N (PN a x E) (PN b y Eb)) as X. rewrite <- En, own_prefix in X. discriminate X.
  - destruct (shards x) as [|s0 ss] eqn:Sx; [discriminate S|]. injection S as <-. split; cbn [indexes files]; [rewrite (set_prefix _ _ _ _ E) by reflexivity; exact M|]. intros b y i d Eb Ab Es. destruct (Nat.eq_dec a b) as [<-|N]; [|rewrite set_index_other in Eb by exact N; apply (I b y i d Eb Ab Es)].
    rewrite set_index_same in Eb by exact La. injection Eb as <-. cbn [prefix shards] in *. apply (I a x i d E Al). rewrite Sx. assert (NE : s0 :: ss <> []) by discriminate. rewrite (app_removelast_last s0 NE). change (nth_error (removelast (s0 :: ss)) i = Some d) in Es. rewrite nth_error_app1; [exact Es | apply nth_error_Some; intros X; rewrite X in Es; discriminate Es].
  - injection S as <-. split; cbn [indexes files]; [exact M|]. intros b y i d Eb Ab Es. rewrite dget_dset. match goal with |- context [eq_dec ?f ?g] => destruct (eq_dec f g) as [En|Nn] end; [|apply (I b y i d Eb Ab Es)]. exfalso. destruct fname as [f|].
    + cbn [careful] in Cf. specialize (Cf (prefix y) (nth_error_In _ _ (PN b y Eb))). rewrite En, own_prefix in Cf. discriminate Cf.
    + destruct (Nat.eq_dec a b) as [<-|N].
      * rewrite E in Eb. injection Eb as <-. rewrite name_dot in En by (apply (Pd a x E)). apply (f_equal (@length N)) in En. rewrite app_length in En. cbn in En. lia.
      * pose proof (other_name ps a b _ _ i A N (PN a x E) (PN b y Eb)) as X. rewrite <- En in X. rewrite <- (app_nil_r (prefix x)) in X at 2. rewrite is_prefix_app in X. discriminate X.
  - injection S as <-. split; cbn [indexes files]; [rewrite (set_prefix _ _ _ _ E) by reflexivity; exact M|]. intros b y i d Eb Ab Es. destruct (Nat.eq_dec a b) as [<-|N]; [rewrite set_index_same in Eb by exact La; injection Eb as <-; discriminate Ab|].
    rewrite set_index_other in Eb by exact N. rewrite dget_filter_prefix; [apply (I b y i d Eb Ab Es)|]. apply (other_name ps a b _ _ i A N (PN a x E) (PN b y Eb)).
Qed.
Lemma history_Inv : forall old ps w, apart ps -> history old ps w -> Inv ps w.
Proof.
  intros old ps w A H. induction H as [|w o w' H IH Cf S]; [|apply (step_Inv ps w o w' A IH Cf S)]. split; cbn [start indexes files].
  - rewrite map_map. apply map_id.
  - intros a x i c E _ Es. rewrite nth_error_map in E. destruct (nth_error ps a); [|discriminate E]. injection E as <-. destruct i; discriminate Es.
Qed.
(** Whatever is done to the indexes, the shards of every index in use are read back as they were written. *)
Theorem shards_on_disk : forall old ps w a x, apart ps -> history old ps w -> nth_error (indexes w) a = Some x -> alive x = true -> read_shards w x = map Some (shards x).
Proof.
  intros old ps w a x A H E Al. destruct (history_Inv old ps w A H) as [_ I]. unfold read_shards. apply nth_ext with (d := None) (d' := None); [rewrite !map_length, seq_length; reflexivity|]. intros i Hi. rewrite map_length, seq_length in Hi.
  rewrite (nth_indep _ None (dget (files w) (shard_name (prefix x) 0))) by (rewrite map_length, seq_length; exact Hi). rewrite (map_nth (fun i => dget (files w) (shard_name (prefix x) i)) _ 0), seq_nth by exact Hi. cbn [plus].
  destruct (nth_error (shards x) i) as [c|] eqn:Ec; [|apply nth_error_None in Ec; lia]. rewrite (I a x i c E Al Ec). symmetry. apply nth_error_nth. rewrite nth_error_map, Ec. reflexivity.
Qed.
(** An index that is destroyed leaves no file, and takes none that does not begin with its prefix. *)
Theorem destroy_exact : forall (w : world) a w' x, step w (Destroy a) = Ok w' -> nth_error (indexes w) a = Some x ->
  (forall f, is_prefix (prefix x) f = true -> dget (files w') f = None) /\ (forall f, is_prefix (prefix x) f = false -> dget (files w') f = dget (files w) f) /\ forall i, dget (files w') (shard_name (prefix x) i) = None.
Proof.
  intros w a w' x S E. cbn [step] in S. unfold the_index in S. rewrite E in S. destruct (alive x); [|discriminate S]. cbn [rbind] in S. injection S as <-. cbn [files].
  split; [intros f Hf; apply dget_filter_gone, Hf|]. split; [intros f Hf; apply dget_filter_prefix, Hf|]. intros i. apply dget_filter_gone, own_prefix.
Qed.
End P.
Print Assumptions shard_name_inj.
Print Assumptions shards_on_disk.
Print Assumptions destroy_exact.

(** ** Examples *)
Definition run (ps : list pystr) (os : list (op nat)) : result (world nat) := rfold step os (start [] ps).
Definition reads (r : result (world nat)) : result (list (list (option nat))) := let* w := r in Ok (map (read_shards w) (indexes w)).
Example files_example : reads (run [str "/tmp/a"; str "/tmp/b"] [Close 0 1; Close 1 5; Close 0 2; Save 0 None 9; Reopen 1; Close 1 6; Close 1 7; Destroy 0]) = Ok [[None; None]; [Some 6; Some 7]].
Proof. vm_compute. reflexivity. Qed.
Example apart_example : apart [str "/tmp/a"; str "/tmp/b"].
Proof.
  split; [intros p [<-|[<-|[]]]; reflexivity|]. intros a b p q N Ea Eb. destruct a as [|[|a]], b as [|[|b]]; cbn in Ea, Eb; try congruence; try (destruct a; discriminate Ea); try (destruct b; discriminate Eb); injection Ea as <-; injection Eb as <-; reflexivity.
Qed.
(** Violation: destroying an index deletes the shards of another whose prefix is longer. *)
Theorem destroy_other_refuted : exists ps os w, run ps os = Ok w /\ ps = [str "idx"; str "idx2"] /\ reads (Ok w) = Ok [[Some 1]; [Some 5]] /\ reads (step w (Destroy 0)) = Ok [[None]; [None]].
Proof. exists [str "idx"; str "idx2"], [Close 0 1; Close 1 5]. eexists. split; [vm_compute; reflexivity|]. vm_compute. auto. Qed.
(** Violation: an index saved under its prefix overwrites a shard of another; a dot at the end of a prefix makes two indexes write the same shards. *)
Theorem save_other_refuted : exists os, reads (run [str "idx"; str "idx.1"] (os ++ [Save 1 None 9])) = Ok [[Some 1; Some 9]; [Some 5]] /\ reads (run [str "idx"; str "idx.1"] os) = Ok [[Some 1; Some 2]; [Some 5]] /\
  shard_name (str "idx") 0 = shard_name (str "idx.") 0.
Proof. exists [Close 0 1; Close 0 2; Close 1 5]. vm_compute. auto. Qed.
Print Assumptions destroy_other_refuted.
Print Assumptions save_other_refuted.
