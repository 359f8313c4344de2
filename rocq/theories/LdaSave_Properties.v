(** C128 Saving and loading an LDA model. *)
From Verif Require Import Base Str SaveLoad_Model SaveLoad_Properties LdaSave_Model.

(** ** Specification: names of the files beside the main one *)
(** the last part of a path has a character other than '.' *)
Definition stem (r : pystr) : Prop := exists u c v, r = u ++ c :: v /\ c <> 46%N /\ c <> 47%N /\ ~ In 47%N v.
Definition zips : list pystr := [str ".gz"; str ".bz2"].
Inductive beside (e : pystr) : pystr -> pystr -> Prop :=
  | beside_zip : forall r z, In z zips -> stem r -> beside e (r ++ z) (r ++ e ++ z)
  | beside_plain : forall f, (forall r z, In z zips -> stem r -> f <> r ++ z) -> beside e f (f ++ e).

Lemma last_dot_spec : forall r acc e r', last_dot r acc = Some (e, r') -> exists p, r = p ++ 46%N :: r' /\ e = rev p ++ acc /\ ~ In 46%N p /\ ~ In 47%N p.
Proof.
  induction r as [|c r IH]; intros acc e r' H; [discriminate|]. cbn [last_dot] in H. destruct (c =? dt)%N eqn:E.
  - injection H as <- <-. apply N.eqb_eq in E. exists []. cbn. subst c. repeat split; auto.
  - destruct (c =? sl)%N eqn:E2; [discriminate|]. apply IH in H. destruct H as (p & -> & -> & N1 & N2). exists (c :: p). apply N.eqb_neq in E, E2. unfold dt, sl in *. cbn [rev In]. rewrite <- app_assoc. repeat split; auto; intros [?|?]; auto.
Qed.
Lemma last_dot_none : forall r acc, last_dot r acc = None -> forall p q, r = p ++ 46%N :: q -> In 47%N p.
Proof.
  induction r as [|c r IH]; intros acc H p q E; [destruct p; discriminate|]. cbn [last_dot] in H. destruct (c =? dt)%N eqn:E1; [discriminate|]. apply N.eqb_neq in E1. unfold dt in E1.
  destruct p as [|c' p]; [injection E as -> _; congruence|]. injection E as -> E. destruct (c' =? sl)%N eqn:E2; [apply N.eqb_eq in E2; left; exact E2|]. right. eapply IH; eassumption.
Qed.
Lemma has_stem_spec : forall r, has_stem r = true <-> exists p c q, r = p ++ c :: q /\ c <> 46%N /\ c <> 47%N /\ ~ In 47%N p.
Proof.
  induction r as [|c r IH]; cbn [has_stem].
  - split; [discriminate|]. intros (p & c & q & E & _). destruct p; discriminate.
  - destruct (c =? sl)%N eqn:E1; [|destruct (c =? dt)%N eqn:E2].
    + apply N.eqb_eq in E1. split; [discriminate|]. intros (p & c' & q & E & N1 & N2 & N3). unfold sl in E1. destruct p as [|x p]; injection E as ? ?; subst; [congruence|]. exfalso. apply N3. left. reflexivity.
    + apply N.eqb_eq in E2. apply N.eqb_neq in E1. unfold dt, sl in *. subst c. rewrite IH. split; intros (p & c' & q & E & N1 & N2 & N3).
      * exists (46%N :: p), c', q. rewrite E. split; [reflexivity|]. split; [exact N1|]. split; [exact N2|]. intros [H|H]; [discriminate | auto].
      * destruct p as [|x p]; injection E as ? ?; subst; [congruence|]. exists p, c', q. split; [reflexivity|]. split; [exact N1|]. split; [exact N2|]. intros H. apply N3. right. exact H.
    + split; [intros _ | reflexivity]. apply N.eqb_neq in E1, E2. exists [], c, r. repeat split; auto.
Qed.
Lemma has_stem_rev : forall r, has_stem (rev r) = true <-> stem r.
Proof.
  intros r. rewrite has_stem_spec. unfold stem. split.
  - intros (p & c & q & E & H1 & H2 & H3). exists (rev q), c, (rev p). split; [|rewrite <- in_rev; auto]. rewrite <- (rev_involutive r), E, rev_app_distr. cbn [rev]. rewrite <- app_assoc. reflexivity.
  - intros (u & c & v & E & H1 & H2 & H3). exists (rev v), c, (rev u). split; [|rewrite <- in_rev; auto]. rewrite E, rev_app_distr. cbn [rev]. rewrite <- app_assoc. reflexivity.
Qed.
Lemma last_dot_unique : forall (y y' x x' : pystr), ~ In 46%N x -> ~ In 46%N x' -> y ++ 46%N :: x = y' ++ 46%N :: x' -> y = y' /\ x = x'.
Proof.
  intros y y' x x' N N'. revert y'. induction y as [|c y IH]; intros [|c' y'] P; cbn [app] in P; [injection P as P2|injection P as P1 P2 ..].
  - auto.
  - exfalso. apply N. rewrite P2. apply in_or_app. right. left. reflexivity.
  - exfalso. apply N'. rewrite <- P2. apply in_or_app. right. left. reflexivity.
  - destruct (IH y' P2) as [-> ->]. subst. auto.
Qed.
(** where the name is cut *)
Lemma splitext_spec : forall p, (exists r e, splitext p = (r, 46%N :: e) /\ p = r ++ 46%N :: e /\ stem r /\ ~ In 46%N e /\ ~ In 47%N e) \/
  (splitext p = (p, []) /\ forall r e, stem r -> ~ In 46%N e -> ~ In 47%N e -> p <> r ++ 46%N :: e).
Proof.
  intros p. unfold splitext. destruct (last_dot (rev p) []) as [[e r]|] eqn:L.
  - apply last_dot_spec in L. destruct L as (q & E & -> & N1 & N2). rewrite app_nil_r. assert (P : p = rev r ++ 46%N :: rev q).
    { rewrite <- (rev_involutive p), E, rev_app_distr. cbn [rev]. rewrite <- app_assoc. reflexivity. }
    destruct (has_stem r) eqn:S.
    + left. exists (rev r), (rev q). split; [reflexivity|]. split; [exact P|]. split; [apply has_stem_rev; rewrite rev_involutive; exact S|]. rewrite <- !in_rev. auto.
    + right. split; [reflexivity|]. intros r' e' S' M1 M2 P'. assert (C : r' = rev r).
      { rewrite in_rev in N1. rewrite P in P'. symmetry. exact (proj1 (last_dot_unique _ _ _ _ N1 M1 P')). }
      subst r'. apply has_stem_rev in S'. rewrite rev_involutive in S'. congruence.
  - right. split; [reflexivity|]. intros r e S M1 M2 P. apply (f_equal (@rev N)) in P. rewrite rev_app_distr in P. cbn [rev] in P. rewrite <- app_assoc in P.
    apply (last_dot_none _ _ L) in P. rewrite <- in_rev in P. auto.
Qed.
Lemma ends_with_spec : forall suf s, ends_with suf s = true <-> exists p, s = p ++ suf.
Proof.
  intros suf s. split.
  - unfold ends_with. intros H. apply andb_true_iff in H. destruct H as [H1 H2]. apply (proj1 (eqb_true _ _)) in H2. exists (firstn (length s - length suf) s). transitivity (firstn (length s - length suf) s ++ skipn (length s - length suf) s); [symmetry; apply firstn_skipn | rewrite H2; reflexivity].
  - intros (p & ->). apply ends_with_app.
Qed.
Lemma dotted_end : forall (e z : pystr) c, ~ In 46%N e -> (exists p, 46%N :: e = p ++ 46%N :: c :: z) -> e = c :: z.
Proof. intros e z c N (p & E). destruct p as [|x p]; [injection E as E; exact E|]. injection E as _ E. exfalso. apply N. rewrite E. apply in_or_app. right. left. reflexivity. Qed.

(** `smart_extension` puts the extension at the end or before the compression extension of a file with a name *)
Theorem smart_extension_beside : forall f e, beside e f (smart_extension f e).
Proof.
  intros f e. unfold smart_extension. destruct (splitext_spec f) as [(r & o & -> & P & S & N1 & N2)|(-> & P)].
  - destruct (ends_with (str ".bz2") (46%N :: o)) eqn:E1; [|destruct (ends_with (str ".gz") (46%N :: o)) eqn:E2].
    + apply ends_with_spec in E1. apply (dotted_end o (str "z2") 98%N N1) in E1. subst o. cbn [length str app]. rewrite P. apply (beside_zip e r (str ".bz2")); [right; left; reflexivity | exact S].
    + apply ends_with_spec in E2. apply (dotted_end o (str "z") 103%N N1) in E2. subst o. rewrite P. apply (beside_zip e r (str ".gz")); [left; reflexivity | exact S].
    + rewrite app_assoc, <- P. apply beside_plain. intros r' z Hz S' E. rewrite P in E.
      assert (X : exists a q, z = 46%N :: a /\ ends_with z (46%N :: o) = q /\ ~ In 46%N a).
      { destruct Hz as [<-|[<-|[]]]; eexists; eexists; (split; [reflexivity|]); (split; [reflexivity|]); cbn; intuition discriminate. }
      destruct X as (a & q & -> & _ & Na).
      assert (Y : o = a).
      { exact (proj2 (last_dot_unique _ _ _ _ N1 Na E)). }
      subst a. destruct Hz as [Z|[Z|[]]].
      * rewrite <- Z in E2. vm_compute in E2. discriminate.
      * rewrite <- Z in E1. vm_compute in E1. discriminate.
  - cbn [app]. replace (ends_with (str ".bz2") []) with false by reflexivity. replace (ends_with (str ".gz") []) with false by reflexivity. apply beside_plain. intros r z Hz S E.
    destruct Hz as [<-|[<-|[]]]; refine (P r _ S _ _ E); cbn; intuition discriminate.
Qed.
Print Assumptions smart_extension_beside.
Lemma beside_length : forall e f g, beside e f g -> length g = length f + length e.
Proof. intros e f g [r z _ _|f' _]; rewrite !app_length; lia. Qed.
Lemma beside_fun : forall e f g g', beside e f g -> beside e f g' -> g = g'.
Proof.
  intros e f g g' B B'. destruct B as [r z Hz S|f N].
  - remember (r ++ z) as f eqn:F. destruct B' as [r' z' Hz' S'|f N].
    + destruct Hz as [<-|[<-|[]]]; destruct Hz' as [<-|[<-|[]]]; cbn [str] in F;
      try (apply (f_equal (@rev N)) in F; rewrite !rev_app_distr in F; cbn in F; discriminate); apply app_inv_tail in F; subst r'; reflexivity.
    + exfalso. eapply N; eassumption.
  - remember f as f0 eqn:F in B'. destruct B' as [r' z' Hz' S'|f0 N']; [exfalso; eapply N; [exact Hz' | exact S' | symmetry; exact F] | subst; reflexivity].
Qed.
(** different names have different companions *)
Lemma snoc_end : forall (a b : pystr) x y, a ++ [x] = b ++ [y] -> a = b /\ x = y.
Proof. intros a b x y H. apply app_inj_tail in H. exact H. Qed.
Lemma beside_clash : forall e e' f g h, In e [str ".state"; str ".id2word"] -> In e' [str ".state"; str ".id2word"] -> beside e f h -> beside e' g h -> e = e' /\ f = g.
Proof.
  intros e e' f g h He He' B B'. assert (L : forall x y : pystr, x = y -> rev x = rev y) by (intros; congruence).
  destruct B as [r z Hz S|f N].
  - remember (r ++ e ++ z) as h eqn:H. destruct B' as [r' z' Hz' S'|f N']; apply L in H;
    destruct He as [<-|[<-|[]]]; destruct He' as [<-|[<-|[]]]; destruct Hz as [<-|[<-|[]]]; try (destruct Hz' as [<-|[<-|[]]]); cbn [str] in H; rewrite !rev_app_distr in H; cbn in H; try discriminate;
    injection H as H; apply L in H; rewrite !rev_involutive in H; subst; auto.
  - remember (f ++ e) as h eqn:H. destruct B' as [r' z' Hz' S'|g N']; apply L in H;
    destruct He as [<-|[<-|[]]]; destruct He' as [<-|[<-|[]]]; try (destruct Hz' as [<-|[<-|[]]]); cbn [str] in H; rewrite !rev_app_distr in H; cbn in H; try discriminate;
    injection H as H; apply L in H; rewrite !rev_involutive in H; subst; auto.
Qed.

Section S.
Context {V S W : Type}.
Variables vnone default_rs default_dtype : V.
Notation load := (load_lda (S := S) (W := W) default_rs default_dtype).
Notation save := (save_lda (S := S) (W := W) vnone).

Lemma names_distinct : forall f, f <> state_name f /\ f <> dict_name f /\ state_name f <> dict_name f.
Proof.
  intros f. pose proof (beside_length _ _ _ (smart_extension_beside f (str ".state"))) as L1. pose proof (beside_length _ _ _ (smart_extension_beside f (str ".id2word"))) as L2.
  unfold state_name, dict_name. cbn [str length] in L1, L2. vm_compute (length (str ".state")) in L1. vm_compute (length (str ".id2word")) in L2. repeat split; intros E; rewrite <- E in *; lia.
Qed.
Lemma readable_set : forall (fs : files (V := V) (S := S) (W := W)) f g o, o <> OBad -> readable (dset fs f o) g = if eq_dec f g then Some o else readable fs g.
Proof. intros fs f g o H. unfold readable. rewrite dget_dset. destruct (eq_dec f g); [destruct o; congruence | reflexivity]. Qed.

(** what the list of ignored attributes asks for *)
Definition asked (i : ign) (a : pystr) : Prop := match i with INone => False | IStr s => a = s | IList l => In a l end.
Definition dropped (i : ign) (a : pystr) : Prop := a <> [] /\ (asked i a \/ In a [str "state"; str "dispatcher"; str "id2word"]).
Lemma eff_ignore_spec : forall i a, memb a (eff_ignore i) = true <-> dropped i a.
Proof.
  intros i a. unfold dropped. rewrite memb_true. assert (A : In a always -> a <> []) by (intros [<-|[<-|[<-|[]]]]; vm_compute; discriminate).
  assert (F : forall l, In a (filter (fun e : pystr => negb (length e =? 0)) l) <-> a <> [] /\ In a l).
  { intros l. rewrite filter_In. destruct a; cbn; intuition congruence. }
  destruct i as [|s|l]; cbn [eff_ignore asked]; rewrite ?in_app_iff, ?F; fold always; cbn [In] in *; intuition auto.
Qed.

(** Loading a saved model gives its attributes (None for those left out), its state and its dictionary, whatever files there were before. *)
Theorem lda_roundtrip : forall f i (m : lda (V := V) (S := S) (W := W)) fs fs', save f i m fs = (Ok tt, fs') ->
  exists attrs st dc, load f fs' = Ok (attrs, st, dc) /\
    (forall a v, dget (la_attrs m) a = Some v -> ~ dropped i a -> dget attrs a = Some v) /\
    (forall a v, dget (la_attrs m) a = Some v -> dropped i a -> dget attrs a = Some vnone) /\
    (forall a, dget (la_attrs m) a = None -> a <> str "random_state" -> a <> str "dtype" -> dget attrs a = None) /\
    st = (match la_state m with Some s => Some (OState s) | None => readable fs (state_name f) end) /\
    (in_ign (str "id2word") i = Ok false -> dc = Some (ODict (la_id2word m))) /\ (in_ign (str "id2word") i = Ok true -> dc = readable fs (dict_name f)) /\
    (forall g, g <> f -> g <> state_name f -> g <> dict_name f -> dget fs' g = dget fs g).
Proof.
  intros f i m fs fs' H. destruct (names_distinct f) as (D1 & D2 & D3). unfold save_lda in H. destruct (in_ign (str "id2word") i) as [b|e] eqn:B; [|discriminate]. injection H as <-.
  unfold load_lda. rewrite dget_dset_same. do 3 eexists. split; [reflexivity|].
  set (p := pickled vnone (eff_ignore i) (la_attrs m)).
  assert (P : forall a, dget p a = option_map (fun v => if memb a (eff_ignore i) then vnone else v) (dget (la_attrs m) a)).
  { intros a. unfold p, pickled. clear p. induction (la_attrs m) as [|[a' v'] l IH]; [reflexivity|]. cbn [map fst snd dget]. destruct (eq_dec a' a) as [<-|N]; [reflexivity | exact IH]. }
  assert (K : forall a v, dget p a = Some v -> dget (with_default (str "dtype") default_dtype (with_default (str "random_state") default_rs p)) a = Some v).
  { intros a v E. unfold with_default. destruct (dget p (str "random_state")) eqn:E1.
    - destruct (dget p (str "dtype")) eqn:E2; [exact E|]. rewrite dget_dset_other; [exact E | congruence].
    - destruct (dget (dset p (str "random_state") default_rs) (str "dtype")) eqn:E2; [rewrite dget_dset_other; [exact E | congruence]|].
      rewrite dget_dset_other; [rewrite dget_dset_other; [exact E | congruence]|]. intros <-. rewrite dget_dset_other in E2 by (vm_compute; discriminate). congruence. }
  split; [|split; [|split; [|split; [|split; [|split]]]]].
  - intros a v E N. apply K. rewrite P, E. cbn. destruct (memb a (eff_ignore i)) eqn:M; [apply eff_ignore_spec in M; contradiction | reflexivity].
  - intros a v E N. apply K. rewrite P, E. cbn. apply eff_ignore_spec in N. rewrite N. reflexivity.
  - intros a E N1 N2. unfold with_default. destruct (dget p (str "random_state")).
    + destruct (dget p (str "dtype")); [|rewrite dget_dset_other by congruence]; rewrite P, E; reflexivity.
    + destruct (dget (dset p (str "random_state") default_rs) (str "dtype")); rewrite ?dget_dset_other by congruence; rewrite P, E; reflexivity.
  - rewrite readable_set by discriminate. destruct (eq_dec f (state_name f)) as [E|_]; [congruence|].
    assert (X : forall fs0 : files (V := V) (S := S) (W := W), readable (if b then fs0 else dset fs0 (dict_name f) (ODict (la_id2word m))) (state_name f) = readable fs0 (state_name f)).
    { intros fs0. destruct b; [reflexivity|]. rewrite readable_set by discriminate. destruct (eq_dec (dict_name f) (state_name f)); [congruence | reflexivity]. }
    rewrite X. destruct (la_state m) as [s|]; [rewrite readable_set by discriminate; destruct (eq_dec (state_name f) (state_name f)); [reflexivity | congruence]|]. destruct (readable fs (state_name f)); reflexivity.
  - intros Hb. injection Hb as ->. rewrite readable_set by discriminate. destruct (eq_dec f (dict_name f)) as [E|_]; [congruence|]. rewrite readable_set by discriminate. destruct (eq_dec (dict_name f) (dict_name f)); [reflexivity | congruence].
  - intros Hb. injection Hb as ->. rewrite readable_set by discriminate. destruct (eq_dec f (dict_name f)) as [E|_]; [congruence|].
    assert (X : readable (match la_state m with Some s => dset fs (state_name f) (OState s) | None => fs end) (dict_name f) = readable fs (dict_name f)).
    { destruct (la_state m); [|reflexivity]. rewrite readable_set by discriminate. destruct (eq_dec (state_name f) (dict_name f)); [congruence | reflexivity]. }
    match goal with |- match ?t with _ => _ end = _ => replace t with (readable fs (dict_name f)) by (symmetry; exact X) end. destruct (readable fs (dict_name f)); reflexivity.
  - intros g G1 G2 G3. rewrite dget_dset_other by congruence. destruct b; [|rewrite dget_dset_other by congruence]; (destruct (la_state m); [rewrite dget_dset_other by congruence|]; reflexivity).
Qed.

(** the dictionary is stored unless `ignore` names it; a string does so if it contains the name, None is an error *)
Theorem lda_save_ok : forall f i (m : lda (V := V) (S := S) (W := W)) fs, 
  match i with
  | INone => fst (save f i m fs) = Err TypeError
  | IStr s => fst (save f i m fs) = Ok tt /\ (in_ign (str "id2word") i = Ok true <-> exists u v, s = u ++ str "id2word" ++ v)
  | IList l => fst (save f i m fs) = Ok tt /\ (in_ign (str "id2word") i = Ok true <-> In (str "id2word") l)
  end.
Proof.
  intros f i m fs. assert (Pf : forall p s, prefixb p s = true <-> exists v, s = p ++ v).
  { induction p as [|a p IH]; intros s; cbn [prefixb]; [split; [intros _; exists s; reflexivity | reflexivity]|]. destruct s as [|b s]; [split; [discriminate | intros (v & E); discriminate]|].
    rewrite andb_true_iff, N.eqb_eq, IH. split; [intros (-> & v & ->); exists v; reflexivity | intros (v & E); injection E as -> ->; eauto]. }
  assert (Sb : forall p s, substrb p s = true <-> exists u v, s = u ++ p ++ v).
  { intros p. induction s as [|c s IH]; cbn [substrb]; rewrite orb_true_iff, Pf.
    - split; [intros [(v & E)|H]; [exists [], v; exact E | discriminate] | intros (u & v & E); destruct u; [left; exists v; exact E | discriminate]].
    - rewrite IH. split; [intros [(v & E)|(u & v & ->)]; [exists [], v; exact E | exists (c :: u), v; reflexivity] | intros ([|c' u] & v & E); [left; exists v; exact E | injection E as -> ->; right; eauto]]. }
  destruct i as [|s|l]; cbn [save_lda in_ign fst]; unfold save_lda; cbn [in_ign fst]; [reflexivity | split; [reflexivity|] ..].
  - rewrite <- Sb. split; [intros H; injection H as ->; reflexivity | intros ->; reflexivity].
  - rewrite <- memb_true. split; [intros H; injection H as ->; reflexivity | intros ->; reflexivity].
Qed.

(** A model saved under another name is not touched, unless one name is that of a companion of the other. *)
Theorem lda_others_safe : forall f g i (m : lda (V := V) (S := S) (W := W)) fs r fs', save g i m fs = (r, fs') ->
  f <> g -> ~ beside (str ".state") f g -> ~ beside (str ".id2word") f g -> ~ beside (str ".state") g f -> ~ beside (str ".id2word") g f -> load f fs' = load f fs.
Proof.
  intros f g i m fs r fs' H N B1 B2 B3 B4.
  assert (X : forall x, In x [f; state_name f; dict_name f] -> dget fs' x = dget fs x).
  { intros x Hx. pose proof (smart_extension_beside f (str ".state")) as F1. pose proof (smart_extension_beside f (str ".id2word")) as F2. pose proof (smart_extension_beside g (str ".state")) as G1. pose proof (smart_extension_beside g (str ".id2word")) as G2.
    fold (state_name f) in F1. fold (dict_name f) in F2. fold (state_name g) in G1. fold (dict_name g) in G2.
    assert (E : x <> g /\ x <> state_name g /\ x <> dict_name g).
    { destruct Hx as [<-|[<-|[<-|[]]]]; (split; [|split]); intros E.
      - congruence.
      - rewrite <- E in G1. contradiction.
      - rewrite <- E in G2. contradiction.
      - rewrite E in F1. contradiction.
      - rewrite E in F1. destruct (beside_clash _ _ _ _ _ ltac:(left; reflexivity) ltac:(left; reflexivity) F1 G1). contradiction.
      - rewrite E in F1. destruct (beside_clash _ _ _ _ _ ltac:(left; reflexivity) ltac:(right; left; reflexivity) F1 G2). contradiction.
      - rewrite E in F2. contradiction.
      - rewrite E in F2. destruct (beside_clash _ _ _ _ _ ltac:(right; left; reflexivity) ltac:(left; reflexivity) F2 G1). contradiction.
      - rewrite E in F2. destruct (beside_clash _ _ _ _ _ ltac:(right; left; reflexivity) ltac:(right; left; reflexivity) F2 G2). contradiction. }
    destruct E as (E1 & E2 & E3). unfold save_lda in H. destruct (in_ign (str "id2word") i) as [b|e]; injection H as <- <-.
    - rewrite dget_dset_other by congruence. destruct b; [|rewrite dget_dset_other by congruence]; (destruct (la_state m); [rewrite dget_dset_other by congruence|]; reflexivity).
    - destruct (la_state m); [rewrite dget_dset_other by congruence|]; reflexivity. }
  unfold load_lda, readable. rewrite (X f), (X (state_name f)), (X (dict_name f)) by (cbn; auto). reflexivity.
Qed.
End S.
Print Assumptions lda_roundtrip.
Print Assumptions lda_save_ok.
Print Assumptions lda_others_safe.

Definition model1 : lda := mkLda (V := nat) (S := nat) (W := nat) [(str "alpha", 7); (str "id2word_cache", 5); (str "random_state", 1); (str "dtype", 2); (str "dispatcher", 9)] (Some 10) 20.
Definition model2 : lda := mkLda (V := nat) (S := nat) (W := nat) [(str "alpha", 8); (str "random_state", 1); (str "dtype", 2)] (Some 11) 21.
Definition cleared : lda := mkLda (V := nat) (S := nat) (W := nat) [(str "alpha", 8); (str "random_state", 1); (str "dtype", 2)] None 21.
Notation sv f i m fs := (snd (save_lda 0 (str f) i m fs)).
Example lda_roundtrip_ex : map fst (sv "m.gz" default_ignore model1 []) = [str "m.state.gz"; str "m.id2word.gz"; str "m.gz"] /\
  load_lda 3 4 (str "m.gz") (sv "m.gz" default_ignore model1 []) =
  Ok ([(str "alpha", 7); (str "id2word_cache", 5); (str "random_state", 1); (str "dtype", 2); (str "dispatcher", 0)], Some (OState 10), Some (ODict 20)).
Proof. vm_compute. auto. Qed.
Example smart_extension_ex : smart_extension (str "a.b/.gz") (str ".state") = str "a.b/.gz.state" /\ smart_extension (str "a.b/c.bz2") (str ".state") = str "a.b/c.state.bz2" /\ smart_extension (str "x.pkl") (str ".e") = str "x.pkl.e".
Proof. vm_compute. auto. Qed.

(** A model saved without its dictionary over an older save gets the dictionary of the older model. *)
Theorem stale_dictionary_refuted : exists fs, fs = sv "m" (IList [str "id2word"]) model2 (sv "m" default_ignore model1 []) /\
  load_lda 3 4 (str "m") fs = Ok ([(str "alpha", 8); (str "random_state", 1); (str "dtype", 2)], Some (OState 11), Some (ODict 20)).
Proof. eexists. split; [reflexivity|]. vm_compute. reflexivity. Qed.
(** A model without state (after `clear`) gets the state of the older save. *)
Theorem stale_state_refuted : exists fs, fs = sv "m" default_ignore cleared (sv "m" default_ignore model1 []) /\
  load_lda 3 4 (str "m") fs = Ok ([(str "alpha", 8); (str "random_state", 1); (str "dtype", 2)], Some (OState 10), Some (ODict 21)).
Proof. eexists. split; [reflexivity|]. vm_compute. reflexivity. Qed.
(** `ignore=None`: TypeError after the state was overwritten, so the old model comes back with the new state. *)
Theorem ignore_none_refuted : exists fs, save_lda 0 (str "m") INone model2 (sv "m" default_ignore model1 []) = (Err TypeError, fs) /\
  load_lda 3 4 (str "m") fs = Ok ([(str "alpha", 7); (str "id2word_cache", 5); (str "random_state", 1); (str "dtype", 2); (str "dispatcher", 0)], Some (OState 11), Some (ODict 20)).
Proof. eexists. split; vm_compute; reflexivity. Qed.
(** Ignoring another attribute, given as a string that contains 'id2word', loses the dictionary. *)
Theorem ignore_string_refuted : exists witness, witness = IStr (str "id2word_cache") /\ (~ asked witness (str "id2word") /\
  load_lda 3 4 (str "m") (sv "m" witness model1 []) =
  Ok ([(str "alpha", 7); (str "id2word_cache", 0); (str "random_state", 1); (str "dtype", 2); (str "dispatcher", 0)], Some (OState 10), None)).
Proof. exists (IStr (str "id2word_cache")). split; [reflexivity|]. split; [vm_compute; discriminate | vm_compute; reflexivity]. Qed.
(** A model saved as "m.state" replaces the state of the model "m". *)
Theorem other_name_refuted : exists witness, witness = model2 /\ (load_lda 3 4 (str "m") (sv "m.state" default_ignore witness (sv "m" default_ignore model1 [])) =
  Ok ([(str "alpha", 7); (str "id2word_cache", 5); (str "random_state", 1); (str "dtype", 2); (str "dispatcher", 0)], Some (OModel [(str "alpha", 8); (str "random_state", 1); (str "dtype", 2)] None None), Some (ODict 20))).
Proof. exists model2. split; [reflexivity|]. vm_compute. reflexivity. Qed.
(** An unreadable state file goes unnoticed: the model is loaded without state. *)
Theorem lost_state_refuted : exists witness, witness = model2 /\ (load_lda 3 4 (str "m") (dset (sv "m" default_ignore witness []) (str "m.state") OBad) =
  Ok ([(str "alpha", 8); (str "random_state", 1); (str "dtype", 2)], None, Some (ODict 21))).
Proof. exists model2. split; [reflexivity|]. vm_compute. reflexivity. Qed.
Print Assumptions stale_dictionary_refuted.
Print Assumptions stale_state_refuted.
Print Assumptions ignore_none_refuted.
Print Assumptions ignore_string_refuted.
Print Assumptions other_name_refuted.
Print Assumptions lost_state_refuted.
Example lda_others_safe_ex : load_lda 3 4 (str "m") (sv "m.new" default_ignore model2 (sv "m" default_ignore model1 [])) = load_lda 3 4 (str "m") (sv "m" default_ignore model1 []).
Proof. vm_compute. reflexivity. Qed.
Example lda_save_ok_ex : in_ign (str "id2word") (IList [str "id2word_cache"]) = Ok false /\ in_ign (str "id2word") (IStr (str "id2word_cache")) = Ok true.
Proof. vm_compute. auto. Qed.
