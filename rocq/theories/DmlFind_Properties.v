(** Articles found in a tree of directories. *)
From Verif Require Import Base Str Phrases_Model Phrases_Proofs Dmlcz_Model Dmlcz_Properties DmlFind_Model.

(** ** Spec *)
(** the names on the way down to a directory *)
Inductive below : tree -> list pystr -> tree -> Prop :=
| below_here t : below t [] t
| below_sub f s name t names d : In (name, t) s -> below t names d -> below (Dir f s) (name :: names) d.
(** names are not empty, have no '/', and the subdirectories of a directory have different ones *)
Inductive wf : tree -> Prop :=
| wf_dir f s : NoDup (map fst s) -> (forall name t, In (name, t) s -> name <> [] /\ ~ In slash name /\ wf t) -> wf (Dir f s).
Definition there (d : tree) (f : pystr) : Prop := In f (map fst (files d)) \/ In f (map fst (subs d)).
Definition article (k : kind) (name : pystr) (d : tree) : Prop :=
  (exists r, name = hash :: r) /\
  match k with
  | Dml => there d (str "fulltext.txt") /\ there d (str "meta.xml")
  | DmlCz => there d (str "dspace_id") /\ (there d (str "fulltext.txt") \/ there d (str "fulltext-dspace.txt")) /\ there d (str "meta.xml")
  | Arxmliv => there d (str "tex.xml")
  end.
Definition number (k : kind) (name : pystr) (d : tree) (i : pystr) : Prop :=
  match k with
  | DmlCz => exists c, dget (files d) (str "dspace_id") = Some c /\ i = strip is_space c
  | _ => exists a, name = a ++ hash :: i /\ ~ In hash i
  end.
Fixpoint joined (names : list pystr) : pystr := match names with [] => [] | [n] => n | n :: r => n ++ [slash] ++ joined r end.
Definition ok_base (b : pystr) : Prop := b <> [] /\ is_prefix [slash] (rev b) = false.
Definition last_name (path n : pystr) : Prop := ~ In slash n /\ (path = n \/ exists a, path = a ++ slash :: n).

(** ** Proofs *)
Definition under (names : list pystr) : pystr := concat (map (fun n => slash :: n) names).
Fixpoint places (t : tree) : list (list pystr * tree) :=
  ([], t) :: match t with Dir _ s => flat_map (fun nt => map (fun x => (fst nt :: fst x, snd x)) (places (snd nt))) s end.
Lemma tree_ind' : forall P : tree -> Prop, (forall f s, (forall n t, In (n, t) s -> P t) -> P (Dir f s)) -> forall t, P t.
Proof.
  intros P H. fix IH 1. intros [f s]. apply H. induction s as [|[m u] s IHs]; intros n t I; [destruct I|]. destruct I as [E|I]; [|exact (IHs n t I)].
  assert (X := IH u). injection E as _ <-. exact X.
Qed.
Lemma under_joined : forall ns, ns <> [] -> under ns = slash :: joined ns.
Proof.
  induction ns as [|n ns IH]; intros N; [congruence|]. unfold under in *. cbn [map concat app]. destruct ns as [|m ns]; [cbn; rewrite app_nil_r; reflexivity|]. rewrite IH by discriminate. reflexivity.
Qed.
Lemma under_app : forall a b : list pystr, under (a ++ b) = under a ++ under b.
Proof. intros. unfold under. rewrite map_app, concat_app. reflexivity. Qed.
Lemma child : forall b n, ok_base b -> n <> [] -> ~ In slash n -> path_join b n = b ++ slash :: n /\ ok_base (b ++ slash :: n).
Proof.
  intros b n [B1 B2] N S. split.
  - unfold path_join. destruct (is_prefix [slash] n) eqn:E; [apply is_prefix_true in E; destruct E as [r ->]; exfalso; apply S; left; reflexivity|]. rewrite B2. destruct b; [congruence | reflexivity].
  - split; [destruct b; discriminate|]. destruct (is_prefix [slash] (rev (b ++ slash :: n))) eqn:E; [|reflexivity]. apply is_prefix_true in E. destruct E as [r E]. rewrite rev_app_distr in E. cbn [rev] in E.
    destruct (rev n) as [|c m] eqn:R; [apply (f_equal (@rev _)) in R; rewrite rev_involutive in R; cbn in R; congruence|]. cbn in E. injection E as E _. exfalso. apply S. apply in_rev. rewrite R. left. exact E.
Qed.
Lemma walk_places : forall t base, wf t -> ok_base base -> walk base t = map (fun x => (base ++ under (fst x), snd x)) (places t).
Proof.
  induction t as [f s IH] using tree_ind'. intros base W B. inversion W as [f' s' ND H]. subst. cbn [walk places map fst snd]. f_equal; [rewrite app_nil_r; reflexivity|].
  clear W ND. induction s as [|[n u] s IHs]; [reflexivity|]. cbn [flat_map fst snd]. rewrite map_app. f_equal.
  - destruct (H n u (or_introl eq_refl)) as (N & S & Wu). destruct (child base n B N S) as [-> B']. rewrite (IH n u (or_introl eq_refl) _ Wu B'). rewrite map_map. apply map_ext. intros [ns d]. cbn [fst snd]. unfold under. cbn [map concat]. rewrite <- app_assoc. reflexivity.
  - apply IHs; [intros m v I; apply (IH m v (or_intror I)) | intros m v I; apply (H m v (or_intror I))].
Qed.
Lemma in_places : forall t ns d, In (ns, d) (places t) <-> below t ns d.
Proof.
  induction t as [f s IH] using tree_ind'. intros ns d. cbn [places]. split.
  - intros [E|I]; [injection E as <- <-; constructor|]. apply in_flat_map in I. destruct I as [[n u] [Iu I]]. apply in_map_iff in I. destruct I as [[ms e] [E I]]. cbn in E. injection E as <- <-.
    econstructor; [exact Iu|]. apply (IH n u Iu). exact I.
  - intros H. inversion H; subst; [left; reflexivity|]. right. apply in_flat_map. exists (name, t). split; [assumption|]. apply in_map_iff. exists (names, d). split; [reflexivity|]. cbn [snd]. apply (IH name t); assumption.
Qed.
Lemma below_names : forall t ns d, below t ns d -> wf t -> Forall (fun n => n <> [] /\ ~ In slash n) ns /\ wf d.
Proof.
  intros t ns d H. induction H as [t | f s n u ns d I _ IH]; intros W; [split; [constructor | exact W]|]. inversion W as [f' s' ND X]; subst. destruct (X n u I) as (A & B & C). destruct (IH C) as [D E]. split; [constructor; [split|] |]; assumption.
Qed.
Lemma nodup_app : forall {A} (l m : list A), NoDup l -> NoDup m -> (forall x, In x l -> In x m -> False) -> NoDup (l ++ m).
Proof.
  intros A l m Hl Hm D. induction Hl as [|x l N Hl IH]; [exact Hm|]. cbn. constructor; [|apply IH; intros y I J; apply (D y (or_intror I) J)]. rewrite in_app_iff. intros [I|I]; [exact (N I) | exact (D x (or_introl eq_refl) I)].
Qed.
Lemma places_nodup : forall t, wf t -> NoDup (map fst (places t)).
Proof.
  induction t as [f s IH] using tree_ind'. intros W. inversion W as [f' s' ND H]. subst. cbn [places map fst]. constructor.
  - intros I. apply in_map_iff in I. destruct I as [[ns d] [E I]]. cbn in E. subst ns. apply in_flat_map in I. destruct I as [[n u] [_ I]]. apply in_map_iff in I. destruct I as [x [E _]]. discriminate.
  - clear W. induction s as [|[n u] s IHs]; [constructor|]. cbn [flat_map fst snd]. rewrite map_app. cbn [map fst] in ND. inversion ND as [|a l Nn ND']. subst. apply nodup_app.
    + rewrite map_map. cbn [fst]. rewrite <- (map_map fst (fun x => n :: x)). apply FinFun.Injective_map_NoDup; [intros x y E; congruence|]. apply (IH n u (or_introl eq_refl)). apply (H n u (or_introl eq_refl)).
    + apply IHs; [intros m v I; apply (IH m v (or_intror I)) | exact ND' | intros m v I; apply (H m v (or_intror I))].
    + intros x I J. rewrite map_map in I. apply in_map_iff in I. destruct I as [y [<- _]]. cbn [fst] in J. apply in_map_iff in J. destruct J as [[ms e] [E J]]. cbn in E. subst ms. apply in_flat_map in J. destruct J as [[m v] [Iv J]].
      apply in_map_iff in J. destruct J as [z [E _]]. cbn in E. injection E as E _. subst m. apply Nn. apply in_map_iff. exists (n, v). split; [reflexivity | exact Iv].
Qed.
Lemma under_head : forall ns, under ns = [] \/ exists r, under ns = slash :: r.
Proof. intros [|n ns]; [left; reflexivity | right; eexists; reflexivity]. Qed.
Lemma first_part : forall (a b x y : pystr), ~ In slash a -> ~ In slash b -> (x = [] \/ exists r, x = slash :: r) -> (y = [] \/ exists r, y = slash :: r) -> a ++ x = b ++ y -> a = b /\ x = y.
Proof.
  induction a as [|c a IH]; intros [|d b] x y A B X Y E; cbn in E.
  - split; [reflexivity | exact E].
  - exfalso. destruct X as [->|[r ->]]; [discriminate|]. injection E as E _. apply B. left. congruence.
  - exfalso. destruct Y as [->|[r ->]]; [discriminate|]. injection E as E _. apply A. left. congruence.
  - injection E as -> E. destruct (IH b x y) as [-> ->]; auto; intros H; [apply A | apply B]; right; exact H.
Qed.
Lemma under_inj : forall a b, Forall (fun n => n <> [] /\ ~ In slash n) a -> Forall (fun n => n <> [] /\ ~ In slash n) b -> under a = under b -> a = b.
Proof.
  induction a as [|n a IH]; intros [|m b] A B E; [reflexivity | discriminate | discriminate |]. unfold under in E. cbn [map concat app] in E. injection E as E. fold (under a) (under b) in E. inversion_clear A. inversion_clear B.
  destruct (first_part n m (under a) (under b)) as [-> X]; try tauto; try apply under_head. f_equal. apply IH; assumption.
Qed.
Lemma walk_nodup : forall t base, wf t -> ok_base base -> NoDup (map fst (walk base t)).
Proof.
  intros t base W B. rewrite walk_places by assumption. rewrite map_map. cbn [fst]. rewrite <- (map_map fst (fun ns => base ++ under ns)). pose proof (places_nodup t W) as ND.
  assert (F : forall ns, In ns (map fst (places t)) -> Forall (fun n => n <> [] /\ ~ In slash n) ns).
  { intros ns I. apply in_map_iff in I. destruct I as [[ns' d] [E I]]. cbn in E. subst ns'. apply in_places in I. apply (below_names _ _ _ I W). }
  revert ND F. generalize (map fst (places t)) as l. induction l as [|ns l IH]; intros ND F; [constructor|]. inversion ND as [|x l' N ND']. subst. cbn. constructor; [|apply IH; [exact ND' | intros y I; apply F; right; exact I]].
  intros I. apply in_map_iff in I. destruct I as [ms [E I]]. apply app_inv_head in E. apply under_inj in E; [subst; exact (N I) | apply F; right; exact I | apply F; left; reflexivity].
Qed.
Lemma in_walk : forall t base p d, wf t -> ok_base base -> (In (p, d) (walk base t) <-> exists ns, below t ns d /\ p = base ++ under ns).
Proof.
  intros t base p d W B. rewrite walk_places by assumption. rewrite in_map_iff. split.
  - intros [[ns e] [E I]]. cbn in E. injection E as <- <-. exists ns. split; [apply in_places; exact I | reflexivity].
  - intros [ns [H ->]]. exists (ns, d). split; [reflexivity | apply in_places; exact H].
Qed.
Lemma exists_there : forall d f, exists_in d f = true <-> there d f.
Proof.
  intros d f. unfold exists_in, there. rewrite existsb_exists, <- in_app_iff. split; [intros [x [I E]]; destruct (eq_dec x f) as [<-|]; [exact I | discriminate] | intros I; exists f; split; [exact I | destruct (eq_dec f f); congruence]].
Qed.
Lemma hash_first : forall n, is_prefix [hash] n = true <-> exists r, n = hash :: r.
Proof. intros n. split; [intros H; apply is_prefix_true in H; exact H | intros [r ->]; reflexivity]. Qed.
Lemma none_last : forall c s, after_last c s = None <-> ~ In c s.
Proof.
  intros c s. induction s as [|x s IH]; cbn; [tauto|]. destruct (after_last c s) eqn:E; [split; [discriminate|]; intros H; exfalso; apply H; right; destruct (in_dec N.eq_dec c s) as [I|N]; [exact I|]; apply IH in N; discriminate|].
  destruct (eq_dec x c) as [->|N]; [split; [discriminate | tauto]|]. split; [intros _ [I|I]; [congruence | tauto] | reflexivity].
Qed.
Lemma some_last : forall c s t, after_last c s = Some t -> exists a, s = a ++ c :: t /\ ~ In c t.
Proof.
  intros c s. induction s as [|x s IH]; intros t H; cbn in H; [discriminate|]. destruct (after_last c s) as [u|] eqn:E.
  - injection H as <-. destruct (IH u eq_refl) as [a [-> N]]. exists (x :: a). split; [reflexivity | exact N].
  - destruct (eq_dec x c) as [->|]; [|discriminate]. injection H as <-. exists []. split; [reflexivity | apply none_last; exact E].
Qed.
Lemma basename_is : forall p, last_name p (basename p).
Proof.
  intros p. unfold basename, last_name. destruct (after_last slash p) as [t|] eqn:E; [apply some_last in E; destruct E as [a [-> N]]; split; [exact N | right; exists a; reflexivity]|]. split; [apply none_last; exact E | left; reflexivity].
Qed.
Lemma last_unique : forall p n, last_name p n -> basename p = n.
Proof.
  intros p n [N [->|[a ->]]]; unfold basename; [apply none_last in N; rewrite N; reflexivity | rewrite after_last_app by exact N; reflexivity].
Qed.
Lemma article_is : forall k p d n, last_name p n -> (is_article k p d = true <-> article k n d).
Proof.
  intros k p d n L. unfold is_article, article. rewrite (last_unique _ _ L). rewrite andb_true_iff, hash_first.
  destruct k; rewrite ?andb_true_iff, ?orb_true_iff, ?exists_there; tauto.
Qed.
Lemma last_under : forall (base : pystr) (ns : list pystr) (n : pystr), ~ In slash n -> last_name (base ++ under (ns ++ [n])) n.
Proof. intros base ns n N. split; [exact N|]. right. exists (base ++ under ns). rewrite under_app. unfold under at 2. cbn. rewrite app_nil_r, app_assoc. reflexivity. Qed.
Lemma id_under : forall (base : pystr) (ns : list pystr) (n : pystr), (exists r, n = hash :: r) -> exists i : pystr, id_from_dir base (base ++ under (ns ++ [n])) = Ok (i, joined (ns ++ [n])) /\ exists a, n = a ++ hash :: i /\ ~ In hash i.
Proof.
  intros base ns n [r Er]. destruct (after_last hash n) as [i|] eqn:E; [|apply none_last in E; exfalso; apply E; rewrite Er; left; reflexivity]. apply some_last in E. destruct E as [a [E N]]. exists i. split; [|exists a; split; assumption].
  assert (J : under (ns ++ [n]) = slash :: joined (ns ++ [n])) by (apply under_joined; destruct ns; discriminate).
  assert (U : base ++ under (ns ++ [n]) = (base ++ under ns ++ slash :: a) ++ hash :: i) by (rewrite under_app; unfold under at 2; cbn [map concat]; rewrite app_nil_r, E, <- !app_assoc; reflexivity).
  assert (A : after_last hash (base ++ under (ns ++ [n])) = Some i) by (rewrite U; apply after_last_app; exact N).
  unfold id_from_dir. rewrite A, J.
  destruct (Nat.leb_spec (length (base ++ slash :: joined (ns ++ [n]))) (length base)) as [L|L]; [rewrite app_length in L; cbn in L; lia|]. apply (f_equal (@Ok _)), f_equal2; [reflexivity|].
  clear. induction base as [|x b IH]; [reflexivity | exact IH].
Qed.
Lemma number_unique : forall k n d i j, number k n d i -> number k n d j -> i = j.
Proof.
  assert (X : forall n i j, (exists a, n = a ++ hash :: i /\ ~ In hash i) -> (exists a, n = a ++ hash :: j /\ ~ In hash j) -> i = j).
  { intros n i j [a [-> Na]] [b [E Nb]]. pose proof (after_last_app hash a i Na) as P. rewrite E, (after_last_app hash b j Nb) in P. congruence. }
  intros k n d i j. destruct k; cbn [number]; try apply X. intros [c [E ->]] [c' [E' ->]]. congruence.
Qed.
Lemma article_id_is : forall k base ns n d, article k n d -> (k = DmlCz -> exists c, dget (files d) (str "dspace_id") = Some c) ->
  exists i, article_id k base (base ++ under (ns ++ [n])) d = Ok (i, joined (ns ++ [n])) /\ number k n d i.
Proof.
  intros k base ns n d [H _] F. destruct (id_under base ns n H) as [i [E A]]. destruct k; cbn [article_id number].
  - exists i. split; assumption.
  - destruct (F eq_refl) as [c Ec]. exists (strip is_space c). split; [rewrite E; cbn [rbind]; rewrite Ec; reflexivity | exists c; split; [exact Ec | reflexivity]].
  - exists i. split; assumption.
Qed.
Lemma rmapM_forall2 : forall {A B} (f : A -> result B) l r, rmapM f l = Ok r -> Forall2 (fun x y => f x = Ok y) l r.
Proof.
  intros A B f l. induction l as [|x l IH]; intros r H; cbn in H; [injection H as <-; constructor|]. destruct (f x) as [y|] eqn:E; cbn in H; [|discriminate]. destruct (rmapM f l) as [ys|]; cbn in H; [|discriminate]. injection H as <-. constructor; [exact E | apply IH; reflexivity].
Qed.
Lemma rmapM_total : forall {A B} (f : A -> result B) l, (forall x, In x l -> exists y, f x = Ok y) -> exists r, rmapM f l = Ok r.
Proof.
  intros A B f l. induction l as [|x l IH]; intros H; [exists []; reflexivity|]. destruct (H x (or_introl eq_refl)) as [y E]. destruct IH as [r R]; [intros z I; apply H; right; exact I|]. exists (y :: r). cbn. rewrite E, R. reflexivity.
Qed.
Lemma forall2_left : forall {A B} (P : A -> B -> Prop) l r x, Forall2 P l r -> In x l -> exists y, In y r /\ P x y.
Proof. intros A B P l r x H. induction H as [|a b l r Hab _ IH]; intros I; [destruct I|]. destruct I as [<-|I]; [exists b; split; [left; reflexivity | exact Hab]|]. destruct (IH I) as [y [J Q]]. exists y. split; [right; exact J | exact Q]. Qed.
Lemma forall2_right : forall {A B} (P : A -> B -> Prop) l r y, Forall2 P l r -> In y r -> exists x, In x l /\ P x y.
Proof. intros A B P l r y H. induction H as [|a b l r Hab _ IH]; intros I; [destruct I|]. destruct I as [<-|I]; [exists a; split; [left; reflexivity | exact Hab]|]. destruct (IH I) as [x [J Q]]. exists x. split; [right; exact J | exact Q]. Qed.
Lemma names_cases : forall (ns : list pystr), ns = [] \/ exists ms n, ns = ms ++ [n].
Proof. intros ns. destruct ns as [|x ns] using rev_ind; [left; reflexivity | right; exists ns, x; reflexivity]. Qed.
Lemma root_fails : forall k base t, exists e, article_id k base base t = Err e.
Proof. intros k base t. assert (E : id_from_dir base base = Err AssertionErr) by (unfold id_from_dir; rewrite Nat.leb_refl; reflexivity). destruct k; cbn [article_id]; rewrite E; eexists; reflexivity. Qed.
Lemma last_slashfree : forall t ms n d, below t (ms ++ [n]) d -> wf t -> ~ In slash n.
Proof. intros t ms n d H W. destruct (below_names _ _ _ H W) as [F _]. apply Forall_app in F. destruct F as [_ F]. inversion_clear F. tauto. Qed.

(** ** Theorems *)
(** C152: the articles found are exactly the directories below the one of the source whose name starts with '#' and which have the files of the format; each is
    found once, by its own path; the number is what follows the last '#' of its name, or what is in its file. *)
Theorem articles_found : forall k base t uris, ok_base base -> wf t -> find_articles k base t = Ok uris ->
  NoDup (map snd uris) /\ forall i p, In (i, p) uris <-> exists ns n d, below t (ns ++ [n]) d /\ article k n d /\ p = joined (ns ++ [n]) /\ number k n d i.
Proof.
  intros k base t uris B W H. unfold find_articles in H. apply rmapM_forall2 in H. set (l := filter (fun d => is_article k (fst d) (snd d)) (walk base t)) in *.
  assert (K : forall x y, In x l -> article_id k base (fst x) (snd x) = Ok y -> exists ns n, below t (ns ++ [n]) (snd x) /\ article k n (snd x) /\ fst x = base ++ under (ns ++ [n]) /\ snd y = joined (ns ++ [n]) /\ number k n (snd x) (fst y)).
  { intros [p d] y I E. cbn [fst snd] in *. apply filter_In in I. destruct I as [I A]. cbn [fst snd] in A. apply in_walk in I; [|assumption|assumption]. destruct I as [ns [Hb ->]]. destruct (names_cases ns) as [->|[ms [n ->]]].
    - exfalso. unfold under in E. cbn in E. rewrite app_nil_r in E. destruct (root_fails k base d) as [e Ee]. congruence.
    - pose proof (last_slashfree _ _ _ _ Hb W) as S. apply (article_is k _ d n (last_under base ms n S)) in A. exists ms, n. split; [exact Hb|]. split; [exact A|]. split; [reflexivity|].
      assert (F : k = DmlCz -> exists c, dget (files d) (str "dspace_id") = Some c).
      { intros ->. cbn [article_id] in E. destruct (id_from_dir base (base ++ under (ms ++ [n]))); [|discriminate]. cbn [rbind] in E. destruct (dget (files d) (str "dspace_id")) as [c|]; [exists c; reflexivity | discriminate E]. }
      destruct (article_id_is k base ms n d A F) as [i [E' N]]. rewrite E' in E. injection E as <-. split; [reflexivity | exact N]. }
  split.
  - assert (M : map fst l = map (fun q => base ++ slash :: q) (map snd uris)).
    { clear - H K. induction H as [|x y l' r E _ IH]; [reflexivity|]. cbn [map]. f_equal.
      - destruct (K x y (or_introl eq_refl) E) as (ns & n & _ & _ & -> & -> & _). rewrite under_joined by (destruct ns; discriminate). reflexivity.
      - apply IH. intros a b I. apply K. right. exact I. }
    apply (NoDup_map_inv (fun q => base ++ slash :: q)). rewrite <- M. unfold l. pose proof (walk_nodup t base W B) as ND. revert ND. generalize (walk base t) as w. clear. induction w as [|x w IH]; intros ND; [constructor|]. cbn [map] in ND. inversion ND as [|a b N ND']. subst.
    cbn [filter]. destruct (is_article k (fst x) (snd x)); [|apply IH; exact ND']. cbn [map]. constructor; [|apply IH; exact ND']. intros I. apply N. apply in_map_iff in I. destruct I as [z [E I]]. apply filter_In in I. rewrite <- E. apply in_map. tauto.
  - intros i p. split.
    + intros I. destruct (forall2_right _ _ _ _ H I) as [x [Ix E]]. destruct (K x (i, p) Ix E) as (ns & n & A1 & A2 & _ & A3 & A4). exists ns, n, (snd x). cbn [fst snd] in *. split; [exact A1|]. split; [exact A2|]. split; assumption.
    + intros (ns & n & d & Hb & A & -> & N). pose proof (last_slashfree _ _ _ _ Hb W) as S.
      assert (I : In (base ++ under (ns ++ [n]), d) l).
      { apply filter_In. cbn [fst snd]. split; [apply in_walk; [assumption | assumption | exists (ns ++ [n]); split; [exact Hb | reflexivity]] | apply (article_is k _ d n (last_under base ns n S)); exact A]. }
      destruct (forall2_left _ _ _ _ H I) as [y [Iy E]]. cbn [fst snd] in E.
      assert (F : k = DmlCz -> exists c, dget (files d) (str "dspace_id") = Some c) by (intros ->; cbn [number] in N; destruct N as [c [Ec _]]; exists c; exact Ec).
      destruct (article_id_is k base ns n d A F) as [j [E' N']]. rewrite E' in E. injection E as <-. rewrite (number_unique _ _ _ _ _ N N'). exact Iy.
Qed.
Print Assumptions articles_found.
(** C152: the search fails just if the directory of the source is an article itself, or an article's number is to be read from what is no file. *)
Theorem articles_all : forall k base t, ok_base base -> wf t ->
  ((exists uris, find_articles k base t = Ok uris) <->
   (forall n, last_name base n -> ~ article k n t) /\ (k = DmlCz -> forall ns n d, below t (ns ++ [n]) d -> article k n d -> exists c, dget (files d) (str "dspace_id") = Some c)).
Proof.
  intros k base t B W. split.
  - intros [uris H]. split.
    + intros n L A. unfold find_articles in H. apply rmapM_forall2 in H. assert (I : In (base, t) (filter (fun d => is_article k (fst d) (snd d)) (walk base t))).
      { apply filter_In. split; [destruct t; left; reflexivity | apply (article_is k base t n L); exact A]. }
      destruct (forall2_left _ _ _ _ H I) as [y [_ E]]. cbn [fst snd] in E. destruct (root_fails k base t) as [e Ee]. congruence.
    + intros -> ns n d Hb A. unfold find_articles in H. apply rmapM_forall2 in H. pose proof (last_slashfree _ _ _ _ Hb W) as S.
      assert (I : In (base ++ under (ns ++ [n]), d) (filter (fun d => is_article DmlCz (fst d) (snd d)) (walk base t))).
      { apply filter_In. cbn [fst snd]. split; [apply in_walk; [assumption | assumption | exists (ns ++ [n]); split; [exact Hb | reflexivity]] | apply (article_is DmlCz _ d n (last_under base ns n S)); exact A]. }
      destruct (forall2_left _ _ _ _ H I) as [y [_ E]]. cbn [fst snd article_id] in E. destruct (id_from_dir base (base ++ under (ns ++ [n]))); [|discriminate]. cbn [rbind] in E. destruct (dget (files d) (str "dspace_id")) as [c|]; [exists c; reflexivity | discriminate E].
  - intros [R F]. apply rmapM_total. intros [p d] I. apply filter_In in I. destruct I as [I A]. cbn [fst snd] in *. apply in_walk in I; [|assumption|assumption]. destruct I as [ns [Hb ->]]. destruct (names_cases ns) as [->|[ms [n ->]]].
    + exfalso. inversion Hb; subst. unfold under in A. cbn in A. rewrite app_nil_r in A. apply (R (basename base) (basename_is base)). apply (article_is k base d _ (basename_is base)). exact A.
    + pose proof (last_slashfree _ _ _ _ Hb W) as S. apply (article_is k _ d n (last_under base ms n S)) in A. destruct (article_id_is k base ms n d A) as [i [E _]]; [intros Ek; apply (F Ek ms n d Hb A) | exists (i, joined (ms ++ [n])); exact E].
Qed.
Print Assumptions articles_all.
(** C152: the content read for an article is that of its own directory. *)
Theorem content_own : forall k base t ns n d i, ok_base base -> wf t -> below t (ns ++ [n]) d ->
  match k with
  | Dml => forall c, dget (files d) (str "fulltext.txt") = Some c -> get_content Dml base t (i, joined (ns ++ [n])) = Ok c
  | Arxmliv => forall c, dget (files d) (str "tex.xml") = Some c -> get_content Arxmliv base t (i, joined (ns ++ [n])) = Ok c
  | DmlCz => forall a b, dget (files d) (str "fulltext.txt") = a -> dget (files d) (str "fulltext-dspace.txt") = b -> (a <> None \/ b <> None) ->
      exists c, get_content DmlCz base t (i, joined (ns ++ [n])) = Ok c /\ (a = Some c \/ b = Some c) /\ (forall x, a = Some x \/ b = Some x -> length x <= length c)
  end.
Proof.
  intros k base t ns n d i B W Hb.
  assert (P : dget (walk base t) (path_join base (joined (ns ++ [n]))) = Some d).
  { assert (E : path_join base (joined (ns ++ [n])) = base ++ under (ns ++ [n])).
    { rewrite under_joined by (destruct ns; discriminate). destruct (below_names _ _ _ Hb W) as [F _]. destruct B as [B1 B2]. unfold path_join. destruct (is_prefix [slash] (joined (ns ++ [n]))) eqn:X.
      - exfalso. apply is_prefix_true in X. destruct X as [r X]. destruct (ns ++ [n]) as [|m ms]; [discriminate|]. inversion_clear F as [|? ? [M1 M2] _]. destruct m as [|c m]; [congruence|]. apply M2. left. destruct ms; cbn in X; congruence.
      - rewrite B2. destruct base; [congruence | reflexivity]. }
    rewrite E. apply In_dget; [apply walk_nodup; assumption|]. apply in_walk; [assumption | assumption|]. exists (ns ++ [n]). split; [exact Hb | reflexivity]. }
  destruct k; unfold get_content; cbn [snd]; rewrite P; cbn [of_option rbind].
  - intros c ->. reflexivity.
  - intros a b -> -> N. destruct (dmlcz_content a b) as [c|e] eqn:E; [|exfalso; unfold dmlcz_content in E; destruct a as [x|], b as [y|]; [destruct (length x <? length y); discriminate E | discriminate E | discriminate E | destruct N as [N|N]; apply N; reflexivity]].
    exists c. split; [reflexivity|]. destruct (content_longest a b c E) as (A1 & A2 & _). split; assumption.
  - intros c ->. reflexivity.
Qed.
Print Assumptions content_own.

Definition the_article : tree := Dir [(str "fulltext.txt", str "one"); (str "meta.xml", [])] [].
Definition the_tree : tree := Dir [] [(str "A", Dir [] [(str "#1", the_article); (str "#2", Dir [(str "meta.xml", [])] [])]); (str "#x", Dir [(str "fulltext.txt", str "two"); (str "meta.xml", [])] [(str "a#7", the_article); (str "#7", the_article)])].
(** Violation: a source whose own directory is an article finds nothing, although there are articles in it. *)
Theorem base_article_refuted : exists t, find_articles Dml (str "/data/#5") t = Err AssertionErr /\ find_articles Dml (str "/data/5") t = Ok [(str "1", str "#1")].
Proof. exists (Dir [(str "fulltext.txt", str "one"); (str "meta.xml", [])] [(str "#1", the_article)]). vm_compute. auto. Qed.
Print Assumptions base_article_refuted.
(** Violation: the number does not identify an article. *)
Theorem same_number_refuted : exists t i p q, find_articles Dml (str "/data") t = Ok [(i, p); (i, q)] /\ p <> q.
Proof. exists (Dir [] [(str "A", Dir [] [(str "#1", the_article)]); (str "B", Dir [] [(str "#1", the_article)])]), (str "1"), (str "A/#1"), (str "B/#1"). split; [vm_compute; reflexivity | discriminate]. Qed.
Print Assumptions same_number_refuted.

Example found_example : find_articles Dml (str "/data") the_tree = Ok [(str "1", str "A/#1"); (str "x", str "#x"); (str "7", str "#x/#7")].
Proof. vm_compute. reflexivity. Qed.
Example found_cz_example : find_articles DmlCz (str "d") (Dir [] [(str "#1", Dir [(str "dspace_id", str " 12 "); (str "fulltext-dspace.txt", str "x"); (str "meta.xml", [])] []); (str "#2", the_article)]) = Ok [(str "12", str "#1")].
Proof. vm_compute. reflexivity. Qed.
Example found_arxmliv_example : find_articles Arxmliv (str "d") (Dir [] [(str "#a#1", Dir [(str "tex.xml", str "x")] [])]) = Ok [(str "1", str "#a#1")] /\
  find_articles DmlCz (str "d") (Dir [] [(str "#1", Dir [(str "fulltext.txt", []); (str "meta.xml", [])] [(str "dspace_id", Dir [] [])])]) = Err OSErr.
Proof. vm_compute. auto. Qed.
Example tree_wf : wf the_tree /\ ok_base (str "/data").
Proof.
  assert (X : forall f, wf (Dir f [])) by (intros f; constructor; [constructor | intros n t []]).
  split; [|split; [discriminate | reflexivity]]. unfold the_tree, the_article. constructor; [repeat (constructor; [cbn; intuition discriminate|]); constructor|].
  intros n t [E|[E|[]]]; injection E as <- <-; (split; [discriminate|]; split; [cbn; intuition discriminate|]); (constructor; [repeat (constructor; [cbn; intuition discriminate|]); constructor|]);
    intros n t [E|[E|[]]]; injection E as <- <-; (split; [discriminate|]; split; [cbn; intuition discriminate|]); apply X.
Qed.
Example content_example : get_content Dml (str "/data") the_tree (str "x", str "#x") = Ok (str "two") /\ get_content Dml (str "/data") the_tree (str "7", str "#x/a#7") = Ok (str "one").
Proof. vm_compute. auto. Qed.
