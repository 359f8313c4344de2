(** Articles of digital mathematics libraries. *)
From Coq Require Import QArith.
From Verif Require Import Base Str Phrases_Model Phrases_Proofs LineCorpora_Proofs Dmlcz_Model.
Close Scope Q_scope.

(** ** Spec *)
(** one field in its tags, on a line of its own *)
Definition written (nv : pystr * pystr) : pystr := [lt] ++ fst nv ++ [gt] ++ snd nv ++ [lt; slash] ++ fst nv ++ [gt].
Definition plain_field (nv : pystr * pystr) : Prop :=
  fst nv <> [] /\ Forall (fun c => is_space c = false) (fst nv) /\ ~ In lt (fst nv) /\ ~ In gt (fst nv) /\ (fst nv <> str "article" /\ ~ In slash (fst nv)) /\
  ~ In lt (snd nv) /\ ~ In chr_nl (snd nv) /\ strip is_space (snd nv) = snd nv /\ snd nv <> [] /\ (fst nv = str "idMR" -> 2 < length (snd nv)).
Definition values (n : pystr) (fields : list (pystr * pystr)) : list pystr := map snd (filter (fun nv => if eq_dec (fst nv) n then true else false) fields).
Definition last_of {A} (l : list A) : option A := match rev l with [] => None | x :: _ => Some x end.
Definition as_lines (ls : list pystr) : pystr := concat (map (fun l => l ++ [chr_nl]) ls).
(** what is expected of a field *)
Definition expected (n : pystr) (fields : list (pystr * pystr)) : option field :=
  if eq_dec n (str "msc") then match values n fields with [] => None | l => Some (Many l) end
  else option_map (fun v => One (if eq_dec n (str "idMR") then skipn 2 v else v)) (last_of (values n fields)).

(** ** Strings *)
Lemma cut_app : forall c a b, ~ In c a -> cut c (a ++ c :: b) = Some (a, b).
Proof.
  intros c a b. induction a as [|x a IH]; intros N; cbn [app cut].
  - destruct (eq_dec c c); [reflexivity | congruence].
  - destruct (eq_dec x c) as [->|]; [exfalso; apply N; left; reflexivity|]. rewrite IH by (intros H; apply N; right; exact H). reflexivity.
Qed.
Lemma contains_spec : forall sub s, contains sub s = true <-> exists a b, s = a ++ sub ++ b.
Proof.
  intros sub s. induction s as [|x s IH]; cbn [contains]; rewrite orb_true_iff.
  - split; [intros [H|H]; [|discriminate H]; apply is_prefix_true in H; destruct H as [t H]; exists [], t; exact H|]. intros (a & b & E). left. destruct a; [|discriminate E]. cbn in E. rewrite E. apply is_prefix_app.
  - rewrite IH. split.
    + intros [H|(a & b & E)]; [apply is_prefix_true in H; destruct H as [t H]; exists [], t; exact H | exists (x :: a), b; rewrite E; reflexivity].
    + intros (a & b & E). destruct a as [|y a]; [left; cbn in E; rewrite E; apply is_prefix_app | right; injection E as -> E; exists a, b; exact E].
Qed.
Lemma before_close_none : forall s, ~ In lt s -> before_close s = None.
Proof.
  induction s as [|x s IH]; intros N; [reflexivity|]. cbn [before_close]. rewrite IH by (intros H; apply N; right; exact H). cbn [is_prefix]. destruct (N.eqb_spec lt x) as [<-|]; [exfalso; apply N; left; reflexivity | reflexivity].
Qed.
Lemma before_close_app : forall v n, ~ In lt v -> ~ In lt n -> before_close (v ++ [lt; slash] ++ n ++ [gt; chr_nl]) = Some v.
Proof.
  intros v n Nv Nn. induction v as [|x v IH].
  - cbn [app before_close]. assert (Q : before_close (n ++ [gt; chr_nl]) = None) by (apply before_close_none; intros H; apply in_app_or in H; destruct H as [H|[H|[H|[]]]]; [contradiction | discriminate H | discriminate H]).
    rewrite Q. cbn [is_prefix skipn]. replace (existsb (fun c => if eq_dec c gt then true else false) (n ++ [gt; chr_nl])) with true; [reflexivity|]. symmetry. apply existsb_exists. exists gt. split; [apply in_or_app; right; left; reflexivity|]. destruct (eq_dec gt gt); congruence.
  - cbn [app before_close]. cbn [app] in IH. rewrite IH by (intros H; apply Nv; right; exact H). reflexivity.
Qed.
Lemma tag_written : forall nv, plain_field nv -> tag_of (written nv ++ [chr_nl]) = Some nv.
Proof.
  intros [n v] (_ & _ & Nl & Ng & _ & Vl & _). cbn [fst snd] in *. unfold tag_of, written. cbn [fst snd app cut]. destruct (eq_dec lt lt); [|congruence].
  rewrite <- app_assoc. cbn [app]. rewrite cut_app by exact Ng. rewrite <- app_assoc. cbn [app]. rewrite <- app_assoc. cbn [app]. pose proof (before_close_app v n Vl Nl) as B. cbn [app] in B. rewrite B. reflexivity.
Qed.
Lemma split_lt : forall a b c d, a ++ lt :: b = c ++ lt :: d -> ~ In lt c -> ~ In lt d -> a = c /\ b = d.
Proof.
  induction a as [|x a IH]; intros b [|y c] d E Nc Nd; cbn in E.
  - injection E as ->. auto.
  - injection E as <- E. exfalso. apply Nc. left. reflexivity.
  - injection E as -> E. exfalso. apply Nd. rewrite <- E. apply in_or_app. right. left. reflexivity.
  - injection E as -> E. destruct (IH b c d E) as [-> ->]; [intros H; apply Nc; right; exact H | exact Nd | auto].
Qed.
Lemma written_inside : forall nv, plain_field nv -> contains (str "</article>") (written nv ++ [chr_nl]) = false.
Proof.
  intros [n v] (Ne & _ & Nl & Ng & [Na Ns] & Vl & _). cbn [fst snd] in *. destruct (contains _ _) eqn:E; [|reflexivity]. exfalso. apply contains_spec in E. destruct E as (a & b & E). unfold written in E. cbn [fst snd] in E.
  assert (E0 : ([lt] ++ n ++ [gt] ++ v ++ [lt; slash] ++ n ++ [gt]) ++ [chr_nl] = lt :: (n ++ gt :: v) ++ lt :: (slash :: n ++ [gt; chr_nl])) by (repeat (cbn [app]; rewrite <- !app_assoc); reflexivity).
  rewrite E0 in E. change (str "</article>" ++ b) with (lt :: slash :: str "article" ++ gt :: b) in E.
  assert (N1 : ~ In lt (n ++ gt :: v)) by (intros H; apply in_app_or in H; destruct H as [H|[H|H]]; [contradiction | discriminate H | contradiction]).
  assert (N2 : ~ In lt (slash :: n ++ [gt; chr_nl])) by (intros [H|H]; [discriminate H|]; apply in_app_or in H; destruct H as [H|[H|[H|[]]]]; [contradiction | discriminate H | discriminate H]).
  destruct a as [|x a]; cbn [app] in E.
  - destruct n as [|c n]; [congruence|]. cbn [app] in E. injection E as E _. apply Ns. left. exact E.
  - injection E as _ E. symmetry in E. destruct (split_lt a (slash :: str "article" ++ gt :: b) (n ++ gt :: v) (slash :: n ++ [gt; chr_nl]) E N1 N2) as [_ F]. injection F as F.
    assert (C1 : cut gt (n ++ [gt; chr_nl]) = Some (n, [chr_nl])) by (apply (cut_app gt n [chr_nl] Ng)). rewrite <- F in C1. change (cut gt (str "article" ++ gt :: b) = Some (n, [chr_nl])) in C1. rewrite cut_app in C1 by (vm_compute; intuition discriminate). injection C1 as C1 _. apply Na. symmetry. exact C1.
Qed.
Lemma written_no_nl : forall nv, plain_field nv -> ~ In chr_nl (written nv).
Proof.
  intros [n v] (_ & Sp & _ & _ & _ & _ & Vn & _) H. cbn [fst snd] in *. assert (Nn : ~ In chr_nl n) by (intros X; rewrite Forall_forall in Sp; apply Sp in X; discriminate X). unfold written in H. cbn [fst snd] in H.
  repeat (apply in_app_or in H; destruct H as [H|H]); try contradiction; cbn in H; intuition discriminate.
Qed.

(** ** Metadata *)
Definition put (d : dict pystr field) (nv : pystr * pystr) : dict pystr field :=
  if eq_dec (fst nv) (str "msc") then dset d (str "msc") (Many (many (dget d (str "msc")) ++ [snd nv])) else dset d (fst nv) (One (if eq_dec (fst nv) (str "idMR") then skipn 2 (snd nv) else snd nv)).
Lemma read_written : forall d nv, plain_field nv -> read_field d (written nv ++ [chr_nl]) = Ok (put d nv).
Proof.
  intros d nv P. unfold read_field. rewrite (tag_written nv P). destruct nv as [n v]. destruct P as (Ne & Sp & _ & _ & _ & _ & _ & St & Nv & L). cbn [fst snd] in *. rewrite (words_word_end _ _ Sp Ne), St. unfold put. cbn [fst snd].
  destruct (eq_dec n (str "msc")) as [->|]; [reflexivity|]. destruct (eq_dec n (str "idMR")) as [Em|].
  - specialize (L Em). destruct v as [|a [|b [|c v]]]; cbn in L; try lia. reflexivity.
  - destruct v; [congruence | reflexivity].
Qed.
Lemma read_all : forall fields d rest, Forall plain_field fields -> read_fields d (map (fun nv => written nv ++ [chr_nl]) fields ++ (str "</article>" ++ [chr_nl]) :: rest) = Ok (fold_left put fields d).
Proof.
  induction fields as [|nv fields IH]; intros d rest F; [reflexivity|]. inversion F as [|? ? P F']; subst. cbn [map app read_fields fold_left]. rewrite (written_inside nv P), (read_written d nv P). cbn [rbind]. apply IH, F'.
Qed.
Lemma values_snoc : forall n fields nv, values n (fields ++ [nv]) = values n fields ++ (if eq_dec (fst nv) n then [snd nv] else []).
Proof. intros n fields nv. unfold values. rewrite filter_app, map_app. cbn [filter]. destruct (eq_dec (fst nv) n); reflexivity. Qed.
Lemma put_expected : forall fields n, dget (fold_left put fields []) n = expected n fields.
Proof.
  intros fields. induction fields as [|nv fields IH] using rev_ind; intros n.
  - unfold expected. destruct (eq_dec n (str "msc")); reflexivity.
  - rewrite fold_left_app. cbn [fold_left]. unfold put at 1. rewrite (IH (str "msc")). unfold expected. rewrite values_snoc. destruct (eq_dec (fst nv) (str "msc")) as [Em|Nm].
    + rewrite dget_dset. destruct (eq_dec (str "msc") n) as [<-|Nn].
      * destruct (eq_dec (str "msc") (str "msc")); [|congruence]. rewrite Em. destruct (eq_dec (str "msc") (str "msc")); [|congruence]. destruct (values (str "msc") fields) as [|x l]; [reflexivity|]. reflexivity.
      * rewrite IH. unfold expected. destruct (eq_dec n (str "msc")); [congruence|]. destruct (eq_dec (fst nv) n); [congruence|]. rewrite app_nil_r. reflexivity.
    + rewrite dget_dset. destruct (eq_dec (fst nv) n) as [<-|Nn].
      * destruct (eq_dec (fst nv) (str "msc")); [congruence|]. unfold last_of. rewrite rev_app_distr. reflexivity.
      * rewrite IH. unfold expected. rewrite app_nil_r. reflexivity.
Qed.
Lemma after_article : forall head rest, Forall (fun l => contains (str "<article>") (l ++ [chr_nl]) = false) head -> after_line (str "<article>") (map (fun l => l ++ [chr_nl]) head ++ (str "<article>" ++ [chr_nl]) :: rest) = rest.
Proof. intros head rest F. induction F as [|l head H F IH]; [reflexivity|]. cbn [map app after_line]. rewrite H. exact IH. Qed.
(** Metadata of an article: every subject, in order, the last value of every other field, no other field, and nothing from outside of the article. *)
Theorem meta_exact : forall head fields tail, Forall (fun l => ~ In chr_nl l) (head ++ tail) -> Forall (fun l => contains (str "<article>") (l ++ [chr_nl]) = false) head -> Forall plain_field fields ->
  exists d, parse_meta (as_lines (head ++ [str "<article>"] ++ map written fields ++ [str "</article>"] ++ tail)) = Ok d /\ forall n, dget d n = expected n fields.
Proof.
  intros head fields tail N H P. exists (fold_left put fields []). split; [|intros n; apply put_expected]. apply Forall_app in N. destruct N as [Nh Nt]. unfold parse_meta, as_lines. rewrite file_lines_concat.
  - rewrite !map_app, map_map. cbn [map app]. rewrite (after_article head _ H). apply read_all, P.
  - repeat (apply Forall_app; split); [exact Nh | | | | exact Nt].
    + constructor; [vm_compute; intuition discriminate | constructor].
    + apply Forall_map. apply (Forall_impl (fun nv => ~ In chr_nl (written nv)) written_no_nl P).
    + constructor; [vm_compute; intuition discriminate | constructor].
Qed.
Print Assumptions meta_exact.

(** ** Places *)
Lemma after_last_app : forall c a b, ~ In c b -> after_last c (a ++ c :: b) = Some b.
Proof.
  intros c a b N. assert (Z : after_last c b = None).
  { clear a. induction b as [|x b IH]; [reflexivity|]. cbn [after_last]. rewrite IH by (intros H; apply N; right; exact H). destruct (eq_dec x c) as [->|]; [exfalso; apply N; left; reflexivity | reflexivity]. }
  induction a as [|x a IH]; cbn [app after_last]; [rewrite Z; destruct (eq_dec c c); congruence | rewrite IH; reflexivity].
Qed.
(** The id of an article is what follows the last '#', and its path is found again, if the directory of the source does not end with '/'. *)
Theorem dir_found : forall base p num, base <> [] -> is_prefix [slash] (rev base) = false -> is_prefix [slash] p = false -> ~ In hash num ->
  let path := base ++ [slash] ++ p ++ [hash] ++ num in
  id_from_dir base path = Ok (num, p ++ [hash] ++ num) /\ path_join base (p ++ [hash] ++ num) = path.
Proof.
  intros base p num Nb Eb Ep Nn path. split.
  - unfold id_from_dir. destruct (Nat.leb_spec (length path) (length base)) as [L|L]; [unfold path in L; rewrite app_length in L; cbn in L; lia|]. f_equal. f_equal.
    + unfold path. replace (base ++ [slash] ++ p ++ [hash] ++ num) with ((base ++ [slash] ++ p) ++ hash :: num) by (rewrite <- !app_assoc; reflexivity). rewrite after_last_app by exact Nn. reflexivity.
    + unfold path. rewrite app_assoc. replace (1 + length base) with (length (base ++ [slash]) + 0) by (rewrite app_length; cbn; lia). rewrite skipn_app. replace (length (base ++ [slash]) + 0) with (length (base ++ [slash])) by lia. rewrite skipn_all, Nat.sub_diag. reflexivity.
  - unfold path_join. replace (is_prefix [slash] (p ++ [hash] ++ num)) with false; [|destruct p as [|c p]; [reflexivity | symmetry; cbn in *; exact Ep]]. rewrite Eb. destruct base; [congruence | reflexivity].
Qed.
Print Assumptions dir_found.
(** Violation: articles of a source at the root, or at '.', are looked for at a wrong place. *)
Theorem dir_root_refuted : exists path i p, id_from_dir (str "/") path = Ok (i, p) /\ path = str "/a/#1" /\ path_join (str "/") p = str "/#1" /\ id_from_dir (str ".") (str "ab/#1") = Ok (str "1", str "/#1").
Proof. exists (str "/a/#1"), (str "1"), (str "/#1"). vm_compute. auto. Qed.
Print Assumptions dir_root_refuted.

(** ** Contents *)
(** The content is that of a file that exists, and of none that is shorter; the full text where both are as long. *)
Theorem content_longest : forall a b c, dmlcz_content a b = Ok c -> (a = Some c \/ b = Some c) /\ (forall x, a = Some x \/ b = Some x -> length x <= length c) /\ (forall x, a = Some x -> length x = length c -> x = c).
Proof.
  intros [x|] [y|] c H; unfold dmlcz_content in H; try discriminate H.
  - destruct (Nat.ltb_spec (length x) (length y)) as [L|L]; injection H as <-; (split; [auto|]; split; [intros z [E|E]; injection E as <-; lia|]); intros z E Z; injection E as <-; [lia | reflexivity].
  - injection H as <-. split; [auto|]. split; [intros z [E|E]; [injection E as <-; lia | discriminate E]|]. intros z E _. congruence.
  - injection H as <-. split; [auto|]. split; [intros z [E|E]; [discriminate E | injection E as <-; lia]|]. intros z E. discriminate E.
Qed.
Print Assumptions content_longest.

(** ** Dictionaries *)
Theorem dictionary_back : forall rows, NoDup (map fst rows) -> (forall i w, In (i, w) rows -> ~ In chr_tab w /\ ~ In chr_nl w) -> load_dictionary (save_dictionary rows) = Ok rows.
Proof.
  intros rows N H. assert (G : forall rows d, (forall i w, In (i, w) rows -> ~ In chr_tab w /\ ~ In chr_nl w) -> rfold load_line (file_lines (save_dictionary rows)) d = Ok (fold_left (fun d kv => dset d (fst kv) (snd kv)) rows d)).
  { clear. intros rows. induction rows as [|[i w] rows IH]; intros d H; [reflexivity|]. unfold save_dictionary. cbn [map concat fst snd]. fold (save_dictionary rows). destruct (H i w (or_introl eq_refl)) as [Ht Hn]. destruct (token_show_Z i) as [Ne Sp].
    assert (Nt : ~ In chr_tab (show_Z i)) by (intros X; rewrite Forall_forall in Sp; apply Sp in X; discriminate X). assert (Nn : ~ In chr_nl (show_Z i)) by (intros X; rewrite Forall_forall in Sp; apply Sp in X; discriminate X).
    replace ((show_Z i ++ [chr_tab] ++ w ++ [chr_nl]) ++ save_dictionary rows) with ((show_Z i ++ [chr_tab] ++ w) ++ chr_nl :: save_dictionary rows) by (rewrite <- !app_assoc; reflexivity).
    rewrite file_lines_cons by (intros X; apply in_app_or in X; destruct X as [X|X]; [contradiction|]; destruct X as [X|X]; [discriminate X | contradiction]). cbn [rfold fold_left fst snd]. unfold load_line at 1. rewrite removelast_last. cbn [app]. rewrite split_on_app by exact Nt. rewrite split_on_word by exact Ht.
    rewrite (strip_nosp _ _ Sp), parse_show_Z. cbn [of_option rbind]. apply IH. intros j x Hj. apply (H j x (or_intror Hj)). }
  unfold load_dictionary. rewrite (G rows [] H). f_equal. fold (dict_of rows). apply dict_of_NoDup, N.
Qed.
Print Assumptions dictionary_back.
(** Violation: a word with a tab is lost without notice, and a last line that does not end loses its last character. *)
Theorem dictionary_tab_refuted : exists rows, load_dictionary (save_dictionary rows) = Ok [(1%Z, str "b")] /\ length rows = 2 /\ load_dictionary (str "7" ++ [chr_tab] ++ str "word") = Ok [(7%Z, str "wor")].
Proof. exists [(0%Z, str "a" ++ [chr_tab]); (1%Z, str "b")]. vm_compute. auto. Qed.
Print Assumptions dictionary_tab_refuted.

(** ** Similar articles *)
Definition suitable (min_score : Q) (docno : nat) (ds : nat * Q) : bool := negb (Qle_bool (snd ds) min_score) && negb (docno =? fst ds).
Definition shown {D : Type} (documents : list D) (ds : nat * Q) (x : D * Q) : Prop := nth_error documents (fst ds) = Some (fst x) /\ snd x = snd ds.
Theorem similar_exact : forall {D : Type} (documents : list D) min_score max_similar docno sims, 0 < max_similar -> (forall d s, In (d, s) sims -> d < length documents) ->
  exists l, similar documents min_score max_similar docno 0 sims = Ok l /\ Forall2 (shown documents) (firstn max_similar (filter (suitable min_score docno) sims)) l.
Proof.
  intros D documents min_score max_similar docno sims P H. assert (G : forall sims n, n < max_similar -> (forall d s, In (d, s) sims -> d < length documents) -> exists l, similar documents min_score max_similar docno n sims = Ok l /\ Forall2 (shown documents) (firstn (max_similar - n) (filter (suitable min_score docno) sims)) l).
  { clear sims H P. induction sims as [|[d s] sims IH]; intros n L H; [exists []; split; [reflexivity|]; cbn; rewrite firstn_nil; constructor|]. cbn [similar filter]. change (suitable min_score docno (d, s)) with (negb (Qle_bool s min_score) && negb (docno =? d)).
    assert (H' : forall d s, In (d, s) sims -> d < length documents) by (intros d' s' X; apply (H d' s' (or_intror X))). destruct (negb (Qle_bool s min_score) && negb (docno =? d)); [|apply IH; assumption].
    destruct (nth_error documents d) as [doc|] eqn:E; [|apply nth_error_None in E; specialize (H d s (or_introl eq_refl)); lia]. cbn [of_option rbind]. destruct (Nat.leb_spec max_similar (S n)) as [M|M].
    - exists [(doc, s)]. split; [reflexivity|]. replace (max_similar - n) with 1 by lia. cbn [firstn]. constructor; [split; [exact E | reflexivity] | constructor].
    - destruct (IH (S n) M H') as (l & El & F). rewrite El. exists ((doc, s) :: l). split; [reflexivity|]. replace (max_similar - n) with (S (max_similar - S n)) by lia. cbn [firstn]. constructor; [split; [exact E | reflexivity] | exact F]. }
  destruct (G sims 0 P H) as (l & E & F). rewrite Nat.sub_0_r in F. exists l. auto.
Qed.
Print Assumptions similar_exact.
(** Violation: zero is to store all similar articles, but only the first is. *)
Theorem similar_zero_refuted : exists sims, similar [str "a"; str "b"; str "c"] 0%Q 0 0 0 sims = Ok [(str "b", 1%Q)] /\ length (filter (suitable 0%Q 0) sims) = 2.
Proof. exists [(1, 1%Q); (2, (1 # 2)%Q)]. vm_compute. auto. Qed.
Print Assumptions similar_zero_refuted.

(** ** Examples *)
Example meta_example : parse_meta (as_lines (map str ["<x>no</x>"; "<article>"; "  <title lang=""cs"">A <b>b</b> </title>"; "<msc>11A05</msc>"; "<idMR>MR123</idMR>"; "<msc>12B34</msc>"; "no tag"; "</article>"; "<title>Z</title>"]%string))
  = Ok [(str "title", One (str "A <b>b</b>")); (str "msc", Many [str "11A05"; str "12B34"]); (str "idMR", One (str "123"))].
Proof. vm_compute. reflexivity. Qed.
Example meta_fails : parse_meta (as_lines (map str ["<article>"; "<>x</a>"]%string)) = Err IndexError.
Proof. vm_compute. reflexivity. Qed.
Example plain_example : Forall plain_field [(str "msc", str "11A05"); (str "title", str "A b")].
Proof. repeat constructor; vm_compute; intuition discriminate. Qed.
Example dir_example : id_from_dir (str "/data/num") (str "/data/num/A/#12") = Ok (str "12", str "A/#12").
Proof. vm_compute. reflexivity. Qed.
Example dictionary_example : load_dictionary (str "3" ++ [chr_tab] ++ str "dog" ++ [chr_nl; chr_nl] ++ str "-1" ++ [chr_tab; chr_nl]) = Ok [(3%Z, str "dog"); ((-1)%Z, [])].
Proof. vm_compute. reflexivity. Qed.
Example similar_example : similar [str "a"; str "b"; str "c"; str "d"] 0%Q 2 1 0 [(1, 1%Q); (2, (1 # 2)%Q); (0, 0%Q); (3, (1 # 3)%Q); (0, (1 # 4)%Q)] = Ok [(str "c", (1 # 2)%Q); (str "d", (1 # 3)%Q)].
Proof. vm_compute. reflexivity. Qed.
