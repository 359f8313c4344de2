(** C134: the text form of a hash dictionary *)
From Verif Require Import Base Str Dictionary_Model Dictionary_Spec SortFacts HashDictionary_Model HashDictionary_Proofs HashDictionary_Properties HashText_Model.
Local Open Scope nat_scope.

(** ** What the file ought to say *)
Record row : Type := mkRow { r_id : nat; r_df : nat; r_words : list (pystr * nat) }.
(** More documents first; with equally many, in the order of the words *)
Definition before (a b : pystr * nat) : Prop := snd b < snd a \/ snd a = snd b /\ str_leb (fst a) (fst b) = true /\ fst a <> fst b.
Definition fields (r : row) : list pystr := show_nat (r_id r) :: show_nat (r_df r) :: map (fun w => fst w ++ [40%N] ++ show_nat (snd w) ++ [41%N]) (r_words r).
Definition rows_of (id_range : nat) (h : hashdict) (rows : list row) : Prop :=
  StronglySorted (fun r s => r_id r < r_id s) rows /\
  (forall i, (exists r, In r rows /\ r_id r = i) <-> i < id_range /\ h_getitem h i <> []) /\
  (forall r, In r rows -> r_df r = dget_or (h_dfs h) (r_id r) 0 /\ StronglySorted before (r_words r) /\
     forall w n, In (w, n) (r_words r) <-> In w (h_getitem h (r_id r)) /\ n = dget_or (h_dfs_debug h) w 0).
Definition cells (file : pystr) : list (list pystr) := map (fun line => split_on chr_tab (removelast line)) (file_lines file).
Definition simple_words (h : hashdict) : Prop := forall i w, In w (h_getitem h i) -> ~ In chr_tab w /\ ~ In chr_nl w.

(** ** Words are listed once *)
Definition sets (h : hashdict) : Prop := Forall (fun it => NoDup (snd it)) (h_id2token h).
Lemma sets_get : forall h i, sets h -> NoDup (h_getitem h i).
Proof.
  intros h i S. unfold h_getitem, dget_or. destruct (dget (h_id2token h) i) as [l|] eqn:E; [|constructor]. apply dget_In in E. unfold sets in S. rewrite Forall_forall in S. exact (S _ E).
Qed.
Lemma Forall_dset : forall (m : dict nat (list pystr)) k v, Forall (fun it => NoDup (snd it)) m -> NoDup v -> Forall (fun it => NoDup (snd it)) (dset m k v).
Proof.
  induction m as [|[k' v'] m IH]; intros k v F H; cbn [dset]; [repeat constructor; exact H|]. inversion F; subst. destruct (eq_dec k' k); constructor; auto.
Qed.
Section Reach.
Context (myhash : pystr -> Z) (id_range : nat) (debug : bool).
Lemma sets_group : forall gs h res, sets h -> sets (fst (fold_left (h_group_step myhash id_range debug) gs (h, res))).
Proof.
  induction gs as [|[w f] gs IH]; intros h res S; [exact S|]. cbn [fold_left]. unfold h_group_step at 2, h_restricted_hash. destruct debug; apply IH; [|exact S]. unfold sets. cbn [h_id2token]. apply Forall_dset; [exact S|].
  set (i := h_hash myhash id_range w). pose proof (sets_get h i S) as N. unfold h_getitem in N. unfold set_add. destruct (memb w (dget_or (h_id2token h) i [])) eqn:M; [exact N|]. apply memb_false in M.
  rewrite <- (rev_involutive (dget_or (h_id2token h) i [] ++ [w])). apply NoDup_rev. rewrite rev_app_distr. cbn [rev app]. constructor; [rewrite <- in_rev; exact M | apply NoDup_rev, N].
Qed.
Lemma sets_step : forall h o, sets h -> sets (h_step myhash id_range debug h o).
Proof.
  intros h [doc u|nb na kn] S; cbn [h_step].
  - unfold h_doc2bow. match goal with |- context [fold_left ?f ?g ?s] => assert (G : sets (fst (fold_left f g s))) by (apply sets_group, S); destruct (fold_left f g s) as [h' res] end. cbn [fst] in *. destruct (u || h_self_allow_update)%bool; exact G.
  - unfold h_filter_extremes, sets. cbn [h_id2token]. apply Forall_forall. intros it Hit. apply in_map_iff in Hit as (x & <- & Hx). cbn [snd]. apply NoDup_filter. unfold sets in S. rewrite Forall_forall in S. exact (S x Hx).
Qed.
Lemma sets_run : forall ops h, sets h -> sets (h_run myhash id_range debug ops h).
Proof. induction ops as [|o ops IH]; intros h S; [exact S|]. apply IH, sets_step, S. Qed.
End Reach.

(** ** Rows *)
Definition the_row (h : hashdict) (i : nat) : row :=
  mkRow i (dget_or (h_dfs h) i 0) (isort (fun a b => snd b <=? snd a) (map (fun w => (w, dget_or (h_dfs_debug h) w 0)) (isort str_leb (h_getitem h i)))).
Definition the_rows (id_range : nat) (h : hashdict) : list row := map (the_row h) (filter (fun i => negb (match h_getitem h i with [] => true | _ => false end)) (seq 0 id_range)).
Lemma precedes_sorted : forall {A} (R : A -> A -> Prop) l a b, StronglySorted R l -> precedes l a b -> R a b.
Proof.
  intros A R l a b S (l1 & l2 & l3 & E). subst l. induction l1 as [|x l1 IH]; cbn [app] in S; inversion S as [|? ? S' F]; subst; [|apply IH, S']. rewrite Forall_forall in F. apply F. apply in_or_app. right. left. reflexivity.
Qed.
Lemma precedes_map_inv : forall {A B} (f : A -> B) l a b, precedes (map f l) a b -> exists x y, precedes l x y /\ f x = a /\ f y = b.
Proof.
  intros A B f l a b (l1 & l2 & l3 & E). apply map_eq_app in E as (m1 & m' & -> & <- & E). destruct m' as [|x m']; [discriminate E|]. cbn [map] in E. injection E as Ea E. apply map_eq_app in E as (m2 & m'' & -> & <- & E). destruct m'' as [|y m'']; [discriminate E|]. injection E as Eb E.
  exists x, y. split; [|split; assumption]. exists m1, m2, m''. reflexivity.
Qed.
Lemma precedes_distinct : forall {A} (l : list A) a b, NoDup l -> precedes l a b -> a <> b.
Proof.
  intros A l a b N (l1 & l2 & l3 & ->) <-. apply NoDup_remove_2 in N. apply N. apply in_or_app. right. apply in_or_app. right. left. reflexivity.
Qed.
Lemma row_sorted : forall (df : pystr -> nat) ws, NoDup ws -> StronglySorted before (isort (fun a b => snd b <=? snd a) (map (fun w => (w, df w)) (isort str_leb ws))).
Proof.
  intros df ws N. set (l := map (fun w => (w, df w)) (isort str_leb ws)). set (le := fun a b : pystr * nat => snd b <=? snd a).
  assert (T : forall x y, le x y = true \/ le y x = true) by (intros x y; unfold le; destruct (Nat.le_ge_cases (snd x) (snd y)) as [H|H]; apply Nat.leb_le in H; auto).
  assert (TR : forall x y z, le x y = true -> le y z = true -> le x z = true) by (unfold le; intros x y z H1 H2; apply Nat.leb_le in H1, H2; apply Nat.leb_le; lia).
  pose proof (isort_stable le T TR l) as S.
  assert (Nl : NoDup (isort str_leb ws)) by (eapply Permutation_NoDup; [apply Permutation_isort | exact N]).
  clear -S Nl l. induction S as [|a s S IH F]; constructor; [exact IH|]. apply Forall_forall. intros b Hb. rewrite Forall_forall in F. destruct (F b Hb) as [L O]. unfold le in *. apply Nat.leb_le in L. unfold before.
  destruct O as [O|O]; [apply Nat.leb_gt in O; left; exact O|]. destruct (Nat.eq_dec (snd a) (snd b)) as [E|E]; [|left; lia]. right. split; [exact E|].
  apply precedes_map_inv in O as (x & y & P & <- & <-). cbn [fst]. split.
  - exact (precedes_sorted _ _ _ _ (isort_StronglySorted str_leb str_leb_total str_leb_trans ws) P).
  - exact (precedes_distinct _ _ _ Nl P).
Qed.
Lemma In_isort_iff : forall {A} (le : A -> A -> bool) l x, In x (isort le l) <-> In x l.
Proof. intros A le l x. split; apply Permutation_in; [apply Permutation_sym|]; apply Permutation_isort. Qed.
Lemma the_rows_ok : forall id_range h, sets h -> rows_of id_range h (the_rows id_range h).
Proof.
  intros id_range h S. unfold rows_of, the_rows. split; [|split].
  - assert (SS : StronglySorted lt (filter (fun i => negb (match h_getitem h i with [] => true | _ => false end)) (seq 0 id_range))).
    { generalize 0. induction id_range as [|n IH]; intros k; [constructor|]. cbn [seq filter]. specialize (IH (Datatypes.S k)). destruct (negb _); [|exact IH]. constructor; [exact IH|]. apply Forall_forall. intros j Hj. apply filter_In in Hj as (Hj & _). apply in_seq in Hj. lia. }
    induction SS as [|i l SS IH F]; cbn [map]; constructor; [exact IH|]. apply Forall_forall. intros r Hr. apply in_map_iff in Hr as (j & <- & Hj). cbn [the_row r_id]. rewrite Forall_forall in F. apply F, Hj.
  - intros i. split.
    + intros (r & Hr & <-). apply in_map_iff in Hr as (j & <- & Hj). cbn [the_row r_id]. apply filter_In in Hj as (Hj & E). apply in_seq in Hj. split; [lia|]. intros K. rewrite K in E. discriminate E.
    + intros (L & NE). exists (the_row h i). split; [|reflexivity]. apply in_map. apply filter_In. split; [apply in_seq; lia|]. destruct (h_getitem h i); [congruence | reflexivity].
  - intros r Hr. apply in_map_iff in Hr as (i & <- & Hi). cbn [the_row r_df r_id r_words]. split; [reflexivity|]. split; [apply row_sorted, sets_get, S|]. intros w n. rewrite In_isort_iff, in_map_iff. split.
    + intros (x & E & Hx). injection E as <- <-. split; [exact (proj1 (In_isort_iff str_leb _ _) Hx) | reflexivity].
    + intros (Hw & ->). exists w. split; [reflexivity|]. apply In_isort_iff, Hw.
Qed.
Lemma text_rows : forall id_range h, h_save_as_text id_range h = concat (map (fun w => w ++ [chr_nl]) (map (fun r => join [chr_tab] (fields r)) (the_rows id_range h))).
Proof.
  intros id_range h. unfold h_save_as_text, the_rows. induction (seq 0 id_range) as [|i l IH]; [reflexivity|]. cbn [map concat filter]. rewrite IH. unfold text_row at 1.
  destruct (h_getitem h i) as [|w ws] eqn:E; [reflexivity|]. cbn [negb map concat].
  destruct (isort str_leb (w :: ws)) as [|w' ws'] eqn:EI. { exfalso. pose proof (Permutation_length (Permutation_isort str_leb (w :: ws))) as L. rewrite EI in L. discriminate L. }
  f_equal. unfold fields, the_row. cbn [r_id r_df r_words]. rewrite E, EI. set (es := isort (fun a b => snd b <=? snd a) (map (fun w => (w, dget_or (h_dfs_debug h) w 0)) (w' :: ws'))).
  assert (NE : map word_df es <> []). { unfold es. intros K. apply map_eq_nil in K. pose proof (Permutation_length (Permutation_isort (fun a b : pystr * nat => snd b <=? snd a) (map (fun w => (w, dget_or (h_dfs_debug h) w 0)) (w' :: ws')))) as L. rewrite K in L. discriminate L. }
  change (show_nat i ++ [chr_tab] ++ show_nat (dget_or (h_dfs h) i 0) ++ [chr_tab] ++ join [chr_tab] (map word_df es) ++ [chr_nl] = join [chr_tab] (show_nat i :: show_nat (dget_or (h_dfs h) i 0) :: map word_df es) ++ [chr_nl]).
  destruct (map word_df es) as [|e l']; [congruence|]. generalize (show_nat i) (show_nat (dget_or (h_dfs h) i 0)). intros a b. change (join [chr_tab] (a :: b :: e :: l')) with (a ++ [chr_tab] ++ b ++ [chr_tab] ++ join [chr_tab] (e :: l')). rewrite <- !app_assoc. reflexivity.
Qed.
Lemma show_no : forall n c, is_digit c = false -> ~ In c (show_nat n).
Proof. intros n c H K. pose proof (show_nat_digits n) as F. rewrite Forall_forall in F. rewrite (F c K) in H. discriminate H. Qed.
Lemma fields_clean : forall c h i, is_digit c = false -> c <> 40%N -> c <> 41%N -> (forall w, In w (h_getitem h i) -> ~ In c w) -> Forall (fun f => ~ In c f) (fields (the_row h i)).
Proof.
  intros c h i D N1 N2 W. unfold fields. constructor; [apply show_no, D|]. constructor; [apply show_no, D|]. apply Forall_forall. intros f Hf. apply in_map_iff in Hf as ([w n] & <- & Hw). cbn [the_row r_words fst snd] in *. apply (proj1 (In_isort_iff _ _ _)), in_map_iff in Hw as (x & E & Hx). injection E as <- <-. apply (proj1 (In_isort_iff _ _ _)) in Hx.
  intros K. apply in_app_or in K as [K|K]; [exact (W x Hx K)|]. apply in_app_or in K as [[K|[]]|K]; [congruence|]. apply in_app_or in K as [K|[K|[]]]; [exact (show_no _ _ D K) | congruence].
Qed.
Lemma join_clean : forall c ws, c <> chr_tab -> Forall (fun w => ~ In c w) ws -> ~ In c (join [chr_tab] ws).
Proof.
  induction ws as [|w ws IH]; intros N F; [tauto|]. inversion F; subst. destruct ws as [|w' ws]; [assumption|]. change (join [chr_tab] (w :: w' :: ws)) with (w ++ [chr_tab] ++ join [chr_tab] (w' :: ws)). intros K. apply in_app_or in K as [K|K]; [contradiction|]. destruct K as [K|K]; [congruence | exact (IH N H2 K)].
Qed.
Lemma cells_rows : forall id_range h, simple_words h -> cells (h_save_as_text id_range h) = map fields (the_rows id_range h).
Proof.
  intros id_range h SW. unfold cells. rewrite text_rows. rewrite file_lines_concat.
  - rewrite !map_map. apply map_ext_in. intros r Hr. rewrite removelast_last. apply in_map_iff in Hr as (i & <- & Hi). apply split_on_join; [discriminate|]. apply fields_clean; [reflexivity | discriminate | discriminate | intros w Hw; exact (proj1 (SW i w Hw))].
  - apply Forall_forall. intros line Hl. apply in_map_iff in Hl as (r & <- & Hr). apply in_map_iff in Hr as (i & <- & Hi). apply join_clean; [discriminate|]. apply fields_clean; [reflexivity | discriminate | discriminate | intros w Hw; exact (proj2 (SW i w Hw))].
Qed.
(** After any calls, the lines are those of the ids with words, in order; each gives the number of documents of the id and its words, each once, with their numbers of documents. *)
Theorem hash_text_exact : forall (myhash : pystr -> Z) (id_range : nat) (debug : bool) (ops : list hash_op), let h := h_run myhash id_range debug ops h_empty in simple_words h ->
  exists rows, rows_of id_range h rows /\ cells (h_save_as_text id_range h) = map fields rows.
Proof.
  intros myhash id_range debug ops h SW. exists (the_rows id_range h). split; [|apply cells_rows, SW]. apply the_rows_ok. apply sets_run. constructor.
Qed.
Print Assumptions hash_text_exact.

(** Without [debug] nothing is known of the words: the file is empty. *)
Theorem hash_text_no_debug : forall (myhash : pystr -> Z) (id_range : nat) (ops : list hash_op), h_save_as_text id_range (h_run myhash id_range false ops h_empty) = [].
Proof.
  intros myhash id_range ops.
  assert (G : forall gs h res, h_id2token (fst (fold_left (h_group_step myhash id_range false) gs (h, res))) = h_id2token h) by (induction gs as [|[w f] gs IH]; intros h res; [reflexivity|]; cbn [fold_left]; unfold h_group_step at 2, h_restricted_hash; rewrite IH; reflexivity).
  assert (E : forall ops h, h_id2token h = [] -> h_id2token (h_run myhash id_range false ops h) = []).
  { clear ops. induction ops as [|o ops IH]; intros h H; [exact H|]. apply IH. destruct o as [doc u|nb na kn]; cbn [h_step].
    - unfold h_doc2bow. match goal with |- context [fold_left ?f ?g ?s] => assert (Q : h_id2token (fst (fold_left f g s)) = h_id2token h) by apply G; destruct (fold_left f g s) as [h' res] end. cbn [fst] in *. destruct (u || h_self_allow_update)%bool; cbn [h_id2token]; congruence.
    - unfold h_filter_extremes. cbn [h_id2token]. rewrite H. reflexivity. }
  unfold h_save_as_text. apply concat_nil_Forall. apply Forall_forall. intros t Ht. apply in_map_iff in Ht as (i & <- & _). unfold text_row, h_getitem. rewrite E by reflexivity. reflexivity.
Qed.
Print Assumptions hash_text_no_debug.

(** ** The file determines the words *)
Lemma entry_inj : forall w n w' n', w ++ [40%N] ++ show_nat n ++ [41%N] = w' ++ [40%N] ++ show_nat n' ++ [41%N] -> w = w' /\ n = n'.
Proof.
  intros w n w' n' E. rewrite !app_assoc in E. apply app_inj_tail in E as (E & _). rewrite <- !app_assoc in E. cbn [app] in E.
  assert (Q : forall (a b u v : pystr), ~ In 40%N u -> ~ In 40%N v -> a ++ 40%N :: u = b ++ 40%N :: v -> a = b /\ u = v).
  { clear. induction a as [|x a IH]; intros [|y b] u v Hu Hv E; cbn [app] in E.
    - injection E as ->. split; reflexivity.
    - injection E as <- ->. exfalso. apply Hu. apply in_or_app. right. left. reflexivity.
    - injection E as -> <-. exfalso. apply Hv. apply in_or_app. right. left. reflexivity.
    - injection E as -> E. destruct (IH b u v Hu Hv E) as (-> & ->). split; reflexivity. }
  destruct (Q _ _ _ _ (show_no n 40%N eq_refl) (show_no n' 40%N eq_refl) E) as (-> & S). split; [reflexivity | apply show_nat_inj, S].
Qed.
Theorem hash_text_determines : forall (id_range : nat) (h h' : hashdict), sets h -> sets h' -> simple_words h -> simple_words h' ->
  h_save_as_text id_range h = h_save_as_text id_range h' ->
  forall i w, i < id_range -> In w (h_getitem h i) ->
    In w (h_getitem h' i) /\ dget_or (h_dfs_debug h) w 0 = dget_or (h_dfs_debug h') w 0 /\ dget_or (h_dfs h) i 0 = dget_or (h_dfs h') i 0.
Proof.
  intros id_range h h' S S' W W' E i w L Hw.
  pose proof (cells_rows id_range h W) as C. rewrite E, (cells_rows id_range h' W') in C.
  assert (INJ : forall r s : row, fields r = fields s -> r_id r = r_id s /\ r_df r = r_df s /\ r_words r = r_words s).
  { intros [a b ws] [a' b' ws'] Q. unfold fields in Q. cbn [r_id r_df r_words] in *. injection Q as Q1 Q2 Q3. split; [apply show_nat_inj, Q1|]. split; [apply show_nat_inj, Q2|]. clear Q1 Q2. revert ws' Q3. induction ws as [|[x n] ws IH]; intros [|[x' n'] ws'] Q3; try discriminate; [reflexivity|]. cbn [map fst snd] in Q3. injection Q3 as Q4 Q5. apply entry_inj in Q4 as (-> & ->). f_equal. apply IH, Q5. }
  destruct (the_rows_ok id_range h S) as (_ & R2 & R3). destruct (the_rows_ok id_range h' S') as (_ & _ & R3').
  destruct (proj2 (R2 i)) as (r & Hr & Ei). { split; [exact L|]. intros K. rewrite K in Hw. contradiction. }
  assert (Hf : In (fields r) (map fields (the_rows id_range h'))) by (rewrite C; apply in_map, Hr). apply in_map_iff in Hf as (r' & Ef & Hr'). destruct (INJ _ _ Ef) as (I1 & I2 & I3).
  destruct (R3 r Hr) as (D & _ & M). destruct (R3' r' Hr') as (D' & _ & M'). rewrite I1, Ei in *. 
  pose proof (proj2 (M w _) (conj Hw eq_refl)) as Q. rewrite <- I3 in Q. apply M' in Q as (Q1 & Q2). split; [exact Q1|]. split; [exact Q2|]. congruence.
Qed.
Print Assumptions hash_text_determines.

Example hash_text_ex : h_save_as_text 3 ex_h = str "0" ++ [chr_tab] ++ str "2" ++ [chr_tab] ++ str "abcde(1)" ++ [chr_tab] ++ str "xy(1)" ++ [chr_nl] ++ str "2" ++ [chr_tab] ++ str "2" ++ [chr_tab] ++ str "a(2)" ++ [chr_tab] ++ str "b(1)" ++ [chr_nl].
Proof. vm_compute. reflexivity. Qed.
(** A tabulator in a word: two dictionaries with different words give the same file. *)
Theorem hash_text_tab_refuted : exists (doc doc' : list pystr), let t d := h_save_as_text 1 (h_run (fun _ => 0%Z) 1 true [HDoc2bow d true] h_empty) in t doc = t doc' /\ length doc = 1 /\ length doc' = 2.
Proof. exists [str "a(1)" ++ [chr_tab] ++ str "b"], [str "a"; str "b"]. vm_compute. repeat split; reflexivity. Qed.
Print Assumptions hash_text_tab_refuted.
