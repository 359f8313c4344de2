(** Proofs about the one-document-per-line formats. *)

From Coq Require Import QArith.
From Verif Require Import Base Str Matutils_Model Matutils_Proofs2 Dictionary_Model Utils_Model Formats_Base
  MmCorpus_Model MmCorpus_Proofs LineCorpora_Model.
From Coq Require Import ZifyBool ZifyNat ZifyN.
Close Scope Q_scope.
Local Open Scope Z_scope.

(** ** Strings *)

Lemma lstrip_decomp : forall sp s, exists t, s = t ++ lstrip sp s /\ Forall (fun c => sp c = true) t.
Proof.
  induction s as [|c s IH]; [exists []; split; [reflexivity | constructor]|]. cbn [lstrip].
  destruct (sp c) eqn:E; [|exists []; split; [reflexivity | constructor]].
  destruct IH as (t & Et & Ft). exists (c :: t). split; [cbn [app]; f_equal; exact Et | constructor; auto].
Qed.

Lemma words_lstrip : forall sp s, words sp (lstrip sp s) = words sp s.
Proof.
  intros. destruct (lstrip_decomp sp s) as (t & E & F). rewrite E at 2. rewrite words_spaces by auto. reflexivity.
Qed.

Lemma words_aux_trail : forall sp s cur t, Forall (fun c => sp c = true) t -> words_aux sp cur (s ++ t) = words_aux sp cur s.
Proof.
  induction s as [|c s IH]; intros cur t F; cbn [app words_aux].
  - revert cur. induction F as [|c t Hc F IHt]; intros cur; [reflexivity|]. cbn [words_aux]. rewrite Hc.
    destruct cur; [apply IHt|]. f_equal. rewrite IHt. reflexivity.
  - destruct (sp c); [destruct cur|]; rewrite ?IH by auto; reflexivity.
Qed.

Lemma words_rstrip : forall sp s, words sp (rstrip sp s) = words sp s.
Proof.
  intros. unfold rstrip. destruct (lstrip_decomp sp (rev s)) as (t & E & F).
  apply (f_equal (@rev N)) in E. rewrite rev_involutive, rev_app_distr in E. rewrite E at 2.
  unfold words. rewrite words_aux_trail by (apply Forall_rev; auto). reflexivity.
Qed.

Lemma words_strip : forall sp s, words sp (strip sp s) = words sp s.
Proof. intros. unfold strip. rewrite words_rstrip, words_lstrip. reflexivity. Qed.

Lemma rstrip_end : forall sp a b, b <> [] -> Forall (fun c => sp c = false) b -> rstrip sp (a ++ b) = a ++ b.
Proof.
  intros sp a b NE F. unfold rstrip. rewrite rev_app_distr.
  destruct (rev b) as [|c r] eqn:E.
  - apply (f_equal (@rev N)) in E. rewrite rev_involutive in E. simpl in E; congruence.
  - cbn [app]. rewrite lstrip_id.
    + change (c :: r ++ rev a) with ((c :: r) ++ rev a). rewrite <- E, <- rev_app_distr, rev_involutive. reflexivity.
    + apply Forall_rev in F. rewrite E in F. inversion F; auto.
Qed.

(** A string that starts and ends with a non-blank, plus trailing blanks. *)
Lemma strip_span : forall sp c s t, sp c = false -> rstrip sp (c :: s) = c :: s -> Forall (fun c => sp c = true) t ->
  strip sp ((c :: s) ++ t) = c :: s.
Proof.
  intros sp c s t Hc Hr F. unfold strip. cbn [app]. rewrite lstrip_id by auto.
  change (c :: s ++ t) with ((c :: s) ++ t). rewrite rstrip_app_sp by auto. exact Hr.
Qed.

Lemma break_at_app : forall c a b, ~ In c a -> break_at c (a ++ c :: b) = (a, Some b).
Proof.
  induction a as [|x a IH]; intros b NI; cbn [app break_at].
  - rewrite N.eqb_refl. reflexivity.
  - destruct (N.eqb_spec x c) as [->|NE]; [exfalso; apply NI; left; reflexivity|].
    rewrite IH by (intros X; apply NI; right; auto). reflexivity.
Qed.

Lemma break_at_none : forall c a, ~ In c a -> break_at c a = (a, None).
Proof.
  induction a as [|x a IH]; intros NI; cbn [break_at]; [reflexivity|].
  destruct (N.eqb_spec x c) as [->|NE]; [exfalso; apply NI; left; reflexivity|].
  rewrite IH by (intros X; apply NI; right; auto). reflexivity.
Qed.

Lemma rsplit_colon_pair : forall a b, ~ In 58%N b -> rsplit_colon (a ++ [58%N] ++ b) = [a; b].
Proof.
  intros a b NI. unfold rsplit_colon. rewrite app_assoc, rev_app_distr, rev_app_distr. cbn [rev app].
  rewrite break_at_app by (rewrite <- in_rev; auto). rewrite !rev_involutive. reflexivity.
Qed.

(** ** Lines *)

Lemma write_lines_content : forall ls c, fst (write_lines c ls) = c ++ concat ls.
Proof.
  induction ls as [|l ls IH]; intros c; cbn [write_lines].
  - cbn. rewrite app_nil_r. reflexivity.
  - specialize (IH (c ++ l)). destruct (write_lines (c ++ l) ls). cbn [fst] in *. rewrite IH, <- app_assoc. reflexivity.
Qed.

Lemma write_lines_offsets_length : forall ls c, length (snd (write_lines c ls)) = length ls.
Proof.
  induction ls as [|l ls IH]; intros c; cbn [write_lines]; [reflexivity|].
  specialize (IH (c ++ l)). destruct (write_lines (c ++ l) ls). cbn [snd length] in *. congruence.
Qed.

Lemma write_lines_nth : forall ls c i, (i < length ls)%nat ->
  nth i (snd (write_lines c ls)) 0 = Z.of_nat (length (c ++ concat (firstn i ls))).
Proof.
  induction ls as [|l ls IH]; intros c i L; [cbn in L; lia|]. cbn [write_lines].
  specialize (IH (c ++ l)). destruct (write_lines (c ++ l) ls) as [c' os]. cbn [snd] in *.
  destruct i as [|i]; cbn [nth firstn concat].
  - rewrite app_nil_r. reflexivity.
  - cbn [length] in L. rewrite IH by lia. rewrite <- app_assoc. reflexivity.
Qed.

Lemma readline_at_nth : forall ts c i, Forall (fun w => ~ In chr_nl w) ts -> (i < length ts)%nat ->
  readline_at (c ++ concat (nl_lines ts)) (length (c ++ concat (firstn i (nl_lines ts)))) = nth i ts [] ++ [chr_nl].
Proof.
  intros ts c i F L. unfold readline_at, lines_at.
  replace (concat (nl_lines ts)) with (concat (firstn i (nl_lines ts)) ++ concat (skipn i (nl_lines ts)))
    by (rewrite <- concat_app, firstn_skipn; reflexivity).
  rewrite app_assoc, skipn_length_app.
  assert (E : skipn i (nl_lines ts) = (nth i ts [] ++ [chr_nl]) :: skipn (S i) (nl_lines ts)).
  { clear F. revert i L. induction ts as [|t ts IH]; intros i L; [cbn in L; lia|].
    destruct i; [reflexivity|]. cbn [length] in L. unfold nl_lines in *. cbn [map skipn nth]. rewrite IH by lia. reflexivity. }
  rewrite E. cbn [concat]. rewrite <- app_assoc. cbn [app]. rewrite file_lines_cons; [reflexivity|].
  rewrite Forall_forall in F. apply F. apply nth_In; auto.
Qed.

(** Everything needed of a file written line by line. *)
Lemma written_file : forall c ts content offsets, Forall (fun w => ~ In chr_nl w) ts ->
  write_lines c (nl_lines ts) = (content, offsets) ->
  content = c ++ concat (nl_lines ts) /\ length offsets = length ts /\
  forall i, (i < length ts)%nat -> 0 <= nth i offsets 0 /\
    readline_at content (Z.to_nat (nth i offsets 0)) = nth i ts [] ++ [chr_nl].
Proof.
  intros c ts content offsets F H.
  assert (E1 : content = fst (write_lines c (nl_lines ts))) by (rewrite H; reflexivity).
  assert (E2 : offsets = snd (write_lines c (nl_lines ts))) by (rewrite H; reflexivity).
  rewrite write_lines_content in E1. split; [exact E1|]. split.
  - rewrite E2, write_lines_offsets_length. apply map_length.
  - intros i L. rewrite E2, write_lines_nth by (unfold nl_lines; rewrite map_length; auto).
    split; [lia|]. rewrite Nat2Z.id, E1. apply readline_at_nth; auto.
Qed.

Lemma gen_map_all : forall {A B} (f : A -> result B) l ys, Forall2 (fun x y => f x = Ok y) l ys -> gen_map f l = (ys, None).
Proof. induction 1 as [|x y l ys E F IH]; [reflexivity|]. cbn [gen_map]. rewrite E, IH. reflexivity. Qed.

Lemma gen_map_fail : forall {A B} (f : A -> result B) l ys x e r, Forall2 (fun x y => f x = Ok y) l ys ->
  f x = Err e -> gen_map f (l ++ x :: r) = (ys, Some e).
Proof.
  induction 1 as [|x0 y l ys E F IH]; intros Ex; cbn [app gen_map].
  - rewrite Ex. reflexivity.
  - rewrite E, IH by auto. reflexivity.
Qed.

Lemma rmapM_all : forall {A B} (f : A -> result B) l ys, Forall2 (fun x y => f x = Ok y) l ys -> rmapM f l = Ok ys.
Proof. induction 1 as [|x y l ys E F IH]; [reflexivity|]. cbn [rmapM]. rewrite E. cbn [rbind]. rewrite IH. reflexivity. Qed.

Lemma rmapM_inv : forall {A B} (f : A -> result B) l ys, rmapM f l = Ok ys -> Forall2 (fun x y => f x = Ok y) l ys.
Proof.
  induction l as [|x l IH]; intros ys H; cbn [rmapM] in H.
  - injection H as <-. constructor.
  - destruct (f x) as [y|e] eqn:E; cbn [rbind] in H; [|discriminate].
    destruct (rmapM f l) as [ys'|e] eqn:E'; cbn [rbind] in H; [|discriminate].
    injection H as <-. constructor; auto.
Qed.

Lemma Forall2_map_l' : forall {A B C} (f : A -> B) (R : B -> C -> Prop) l l',
  Forall2 (fun a c => R (f a) c) l l' -> Forall2 R (map f l) l'.
Proof. induction 1; cbn [map]; constructor; auto. Qed.

Lemma Forall2_refl_in : forall {A B} (R : A -> B -> Prop) (g : A -> B) l,
  (forall x, In x l -> R x (g x)) -> Forall2 R l (map g l).
Proof. induction l; cbn [map]; intros H; constructor; [apply H; left; auto | apply IHl; intros; apply H; right; auto]. Qed.

Lemma Forall2_nth : forall {A B} (R : A -> B -> Prop) l l' da db i, Forall2 R l l' -> (i < length l)%nat ->
  R (nth i l da) (nth i l' db).
Proof.
  intros A B R l l' da db i H. revert i. induction H; intros i L; [cbn in L; lia|].
  destruct i; [exact H|]. cbn [nth]. apply IHForall2. cbn in L; lia.
Qed.

(** ** Tokens *)

(** Non-empty and free of white space. *)
Definition token (w : pystr) : Prop := w <> [] /\ Forall (fun c => is_space c = false) w.

Lemma token_no_nl : forall w, token w -> ~ In chr_nl w.
Proof. intros w [_ F] HI. rewrite Forall_forall in F. apply F in HI. discriminate HI. Qed.

Lemma token_no_sp : forall w, token w -> ~ In chr_sp w.
Proof. intros w [_ F] HI. rewrite Forall_forall in F. apply F in HI. discriminate HI. Qed.

Lemma token_show_Z : forall z, token (show_Z z).
Proof. intros. split; [apply show_Z_nonempty | apply show_Z_nospace]. Qed.

Lemma join_no_nl : forall ws, Forall token ws -> ~ In chr_nl (join [chr_sp] ws).
Proof.
  induction ws as [|w ws IH]; intros F HI; [destruct HI|]. inversion F; subst.
  destruct ws as [|w' ws]; [apply (token_no_nl w); auto|].
  change (join [chr_sp] (w :: w' :: ws)) with (w ++ chr_sp :: join [chr_sp] (w' :: ws)) in HI.
  apply in_app_or in HI. destruct HI as [HI|[HI|HI]]; [apply (token_no_nl w); auto | discriminate HI | apply IH; auto].
Qed.

Lemma join_no_char : forall c ws, c <> chr_sp -> Forall (fun w => ~ In c w) ws -> ~ In c (join [chr_sp] ws).
Proof.
  induction ws as [|w ws IH]; intros NE F HI; [destruct HI|]. inversion F; subst.
  destruct ws as [|w' ws]; [auto|].
  change (join [chr_sp] (w :: w' :: ws)) with (w ++ chr_sp :: join [chr_sp] (w' :: ws)) in HI.
  apply in_app_or in HI. destruct HI as [HI|[HI|HI]]; [auto | congruence | apply IH; auto].
Qed.

Lemma words_tokens : forall ws t, Forall token ws -> Forall (fun c => is_space c = true) t ->
  words is_space (join [chr_sp] ws ++ t) = ws.
Proof. intros. apply words_join; auto. Qed.

Lemma words_cons_tokens : forall w ws t, token w -> Forall token ws -> Forall (fun c => is_space c = true) t ->
  words is_space (w ++ chr_sp :: join [chr_sp] ws ++ t) = w :: ws.
Proof.
  intros w ws t [NE NS] F Ft. rewrite words_word_sep by (auto; reflexivity). rewrite words_tokens by auto. reflexivity.
Qed.

(** A join of tokens starts and ends with a non-blank. *)
Lemma join_end : forall ws, Forall token ws -> ws <> [] -> exists a b, join [chr_sp] ws = a ++ b /\ token b.
Proof.
  induction ws as [|w ws IH]; intros F NE; [congruence|]. inversion F; subst.
  destruct ws as [|w' ws]; [exists [], w; split; [reflexivity | auto]|].
  destruct (IH H2) as (a & b & E & T); [discriminate|].
  exists (w ++ chr_sp :: a), b. split; [|exact T].
  change (join [chr_sp] (w :: w' :: ws)) with (w ++ chr_sp :: join [chr_sp] (w' :: ws)).
  rewrite E, <- app_assoc. reflexivity.
Qed.

Lemma join_start : forall ws, Forall token ws -> ws <> [] -> exists c s, join [chr_sp] ws = c :: s /\ is_space c = false.
Proof.
  intros [|w ws] F NE; [congruence|]. inversion F; subst. destruct H1 as [NEw NS].
  destruct w as [|c w]; [congruence|]. inversion NS; subst.
  destruct ws; [exists c, w; split; auto|]. exists c, (w ++ chr_sp :: join [chr_sp] (p :: ws)). split; auto.
Qed.

Lemma strip_join : forall ws t, Forall token ws -> Forall (fun c => is_space c = true) t ->
  strip is_space (join [chr_sp] ws ++ t) = join [chr_sp] ws.
Proof.
  intros ws t F Ft. destruct ws as [|w ws].
  - cbn [join app]. unfold strip. rewrite lstrip_all by auto. reflexivity.
  - destruct (join_start (w :: ws) F) as (c & s & E & Hc); [discriminate|].
    destruct (join_end (w :: ws) F) as (a & b & E' & T); [discriminate|].
    rewrite E. apply strip_span; auto. rewrite <- E, E'. apply rstrip_end; apply T.
Qed.

Lemma split_on_space_join : forall ws t, Forall token ws -> Forall (fun c => is_space c = true) t ->
  split_on_space (join [chr_sp] ws ++ t) = ws.
Proof.
  intros ws t F Ft. unfold split_on_space. rewrite strip_join by auto.
  destruct ws as [|w ws]; [reflexivity|].
  rewrite split_on_join; [|discriminate|eapply Forall_impl; [|exact F]; intros; apply token_no_sp; auto].
  clear Ft. induction F as [|x l [NE _] F IH]; [reflexivity|]. cbn [filter]. destruct x; [congruence|]. rewrite IH. reflexivity.
Qed.

(** ** SVMlight *)

Section Svm.
Context {W : Type} (F : wfmt W) (dom : W -> Prop) (OK : wfmt_ok F dom).
Local Notation doc := (list (Z * W)).

Definition svm_text (d : doc) (label : pystr) : pystr := label ++ [chr_sp] ++ join [chr_sp] (map (svm_pair F) d).

Lemma svm_line_text : forall d l, svm_doc2line F d l = svm_text d l ++ [chr_nl].
Proof. intros. unfold svm_doc2line, svm_text. rewrite !app_assoc. reflexivity. Qed.

Lemma w_show_chars : forall w c, dom w -> In c (w_show F w) -> is_space c = false /\ c <> 35%N /\ c <> 58%N.
Proof. intros w c D HI. pose proof (wf_nospace F dom OK w D) as N. rewrite Forall_forall in N. apply N; auto. Qed.

Lemma token_svm_pair : forall p, dom (snd p) -> token (svm_pair F p).
Proof.
  intros [i w] D. unfold svm_pair. cbn [fst snd] in *. split.
  - pose proof (show_Z_nonempty (i + 1)). destruct (show_Z (i + 1)); [congruence | discriminate].
  - rewrite !Forall_app. split; [apply show_Z_nospace|]. split; [repeat constructor|].
    apply Forall_forall. intros c Hc. apply (w_show_chars w); auto.
Qed.

Lemma svm_pair_no_hash : forall p, dom (snd p) -> ~ In 35%N (svm_pair F p).
Proof.
  intros [i w] D. unfold svm_pair. cbn [fst snd] in *. rewrite !in_app_iff. intros [H|[H|H]].
  - revert H. apply show_Z_notin; [reflexivity | discriminate].
  - destruct H as [H|[]]; discriminate H.
  - apply (w_show_chars w) in H; auto. tauto.
Qed.

Lemma svm_field_pair : forall p, dom (snd p) -> svm_field F (rsplit_colon (svm_pair F p)) = Ok (Some p).
Proof.
  intros [i w] D. unfold svm_pair. cbn [fst snd] in *.
  rewrite rsplit_colon_pair by (intros H; apply (w_show_chars w) in H; tauto).
  unfold svm_field. destruct (eq_dec (show_Z (i + 1)) (str "qid")) as [E|_].
  - exfalso. pose proof (show_Z_chars (i + 1)) as C. rewrite E in C. inversion C; subst.
    destruct H1 as [H1|H1]; vm_compute in H1; discriminate H1.
  - rewrite parse_show_Z, (wf_parse F dom OK) by auto. cbn [of_option rbind]. do 3 f_equal. lia.
Qed.

Lemma somes_map_Some : forall {A} (l : list A), somes (map Some l) = l.
Proof. induction l; cbn [map somes]; congruence. Qed.

Definition label_ok (l : pystr) : Prop := token l /\ ~ In 35%N l.

Lemma svm_text_no_nl : forall d l, label_ok l -> (forall p, In p d -> dom (snd p)) -> ~ In chr_nl (svm_text d l).
Proof.
  intros d l [T _] D. unfold svm_text. rewrite !in_app_iff. intros [H|[H|H]].
  - apply (token_no_nl l T H).
  - destruct H as [H|[]]. discriminate H.
  - revert H. apply join_no_nl. apply Forall_forall. intros w Hw. apply in_map_iff in Hw.
    destruct Hw as (p & <- & Hp). apply token_svm_pair; auto.
Qed.

Lemma svm_line2doc_text : forall d l, label_ok l -> (forall p, In p d -> dom (snd p)) ->
  svm_line2doc F (svm_text d l ++ [chr_nl]) = Ok (Some (d, l)).
Proof.
  intros d l [T NH] D. unfold svm_line2doc.
  assert (Tp : Forall token (map (svm_pair F) d)).
  { apply Forall_forall. intros w Hw. apply in_map_iff in Hw. destruct Hw as (p & <- & Hp). apply token_svm_pair; auto. }
  assert (E : cut_comment (svm_text d l ++ [chr_nl]) = svm_text d l).
  { unfold cut_comment. rewrite break_at_none; [apply removelast_last|].
    unfold svm_text. rewrite !in_app_iff. cbn [In]. intros [[H|[H|H]]|H].
    - auto.
    - destruct H as [H|[]]; discriminate H.
    - revert H. apply join_no_char; [discriminate|]. apply Forall_forall. intros w Hw. apply in_map_iff in Hw.
      destruct Hw as (p & <- & Hp). apply svm_pair_no_hash; auto.
    - destruct H as [H|[]]; discriminate H. }
  rewrite E.
  assert (Ew : words is_space (strip is_space (svm_text d l)) = l :: map (svm_pair F) d).
  { rewrite words_strip. unfold svm_text. cbn [app].
    rewrite <- (app_nil_r (join [chr_sp] (map (svm_pair F) d))). apply words_cons_tokens; auto. }
  destruct (strip is_space (svm_text d l)) as [|c s] eqn:Es; [discriminate Ew|].
  rewrite Ew. rewrite map_map.
  rewrite (rmapM_all (svm_field F) _ (map Some d)).
  - cbn [rbind]. rewrite somes_map_Some. reflexivity.
  - apply Forall2_map_l'. apply Forall2_refl_in. intros p Hp. apply svm_field_pair; auto.
Qed.

Lemma svm_lines_ok : forall labels k corpus ls, svm_lines F labels k corpus = Ok ls ->
  exists lbls, length lbls = length corpus /\
    ls = nl_lines (map (fun dl => svm_text (fst dl) (snd dl)) (combine corpus lbls)) /\
    match labels with
    | None | Some [] => lbls = repeat (str "0") (length corpus)
    | Some l => lbls = firstn (length corpus) (skipn k l)
    end.
Proof.
  intros labels k corpus. revert k. induction corpus as [|d corpus IH]; intros k ls H; cbn [svm_lines] in H.
  - injection H as <-. exists []. repeat split. destruct labels as [[|? ?]|]; reflexivity.
  - match type of H with rbind ?r _ = _ => destruct r as [lb|e] eqn:El end; cbn [rbind] in H; [|discriminate].
    destruct (svm_lines F labels (S k) corpus) as [ls'|e] eqn:E; cbn [rbind] in H; [|discriminate].
    injection H as <-. destruct (IH _ _ E) as (lbls & Hl & -> & Hm).
    exists (lb :: lbls). cbn [length combine map nl_lines]. split; [congruence|]. split.
    + unfold nl_lines. cbn [map fst snd]. rewrite svm_line_text. reflexivity.
    + destruct labels as [[|l0 l]|].
      * injection El as <-. cbn [repeat]. congruence.
      * destruct (nth_error (l0 :: l) k) as [x|] eqn:En; cbn [of_option] in El; [|discriminate].
        injection El as <-. rewrite Hm.
        apply nth_error_split in En. destruct En as (a & b & Eab & La). rewrite Eab, <- La.
        rewrite skipn_length_app. replace (a ++ x :: b) with ((a ++ [x]) ++ b) by (rewrite <- app_assoc; reflexivity).
        replace (S (length a)) with (length (a ++ [x])) by (rewrite app_length; cbn [length]; lia).
        rewrite skipn_length_app. reflexivity.
      * injection El as <-. cbn [repeat]. congruence.
Qed.
End Svm.

(** ** Blei *)

Section Blei.
Context {W : Type} (F : wfmt W) (rnd : W -> W).
Local Notation doc := (list (Z * W)).

Definition blei_text (d : doc) : pystr :=
  show_Z (Z.of_nat (length d)) ++ [chr_sp] ++ join [chr_sp] (map (blei_pair F) (filter (fun p => w_keep F (snd p)) d)).

Lemma blei_line_text : forall d, blei_line F d = blei_text d ++ [chr_nl].
Proof. intros. unfold blei_line, blei_text. rewrite !app_assoc. reflexivity. Qed.

(** ["%g" % w] is one token without a colon, and [float] of it is [rnd w]. *)
Definition g_ok (w : W) : Prop :=
  token (w_show F w) /\ ~ In 58%N (w_show F w) /\ w_parse F (w_show F w) = Some (rnd w).

Lemma token_blei_pair : forall p, g_ok (snd p) -> token (blei_pair F p).
Proof.
  intros [i w] ((NE & NS) & _). unfold blei_pair. cbn [fst snd] in *. split.
  - pose proof (show_Z_nonempty i). destruct (show_Z i); [congruence | discriminate].
  - rewrite !Forall_app. split; [apply show_Z_nospace|]. split; [repeat constructor | exact NS].
Qed.

Lemma blei_pairs_tokens : forall d, (forall p, In p d -> w_keep F (snd p) = true -> g_ok (snd p)) ->
  Forall token (map (blei_pair F) (filter (fun p => w_keep F (snd p)) d)).
Proof.
  intros d G. apply Forall_forall. intros w Hw. apply in_map_iff in Hw. destruct Hw as (p & <- & Hp).
  apply filter_In in Hp. apply token_blei_pair. apply G; tauto.
Qed.

Lemma blei_text_no_nl : forall d, (forall p, In p d -> w_keep F (snd p) = true -> g_ok (snd p)) -> ~ In chr_nl (blei_text d).
Proof.
  intros d G. unfold blei_text. rewrite !in_app_iff. intros [H|[H|H]].
  - revert H. apply show_Z_no_nl.
  - destruct H as [H|[]]. discriminate H.
  - revert H. apply join_no_nl. apply blei_pairs_tokens; auto.
Qed.

Lemma blei_words_text : forall d, (forall p, In p d -> w_keep F (snd p) = true -> g_ok (snd p)) ->
  words is_space (blei_text d ++ [chr_nl]) =
  show_Z (Z.of_nat (length d)) :: map (blei_pair F) (filter (fun p => w_keep F (snd p)) d).
Proof.
  intros d G. unfold blei_text. rewrite <- !app_assoc. cbn [app].
  apply words_cons_tokens; [apply token_show_Z | apply blei_pairs_tokens; auto | repeat constructor].
Qed.

Lemma blei_line2doc_ok : forall d, (forall p, In p d -> w_keep F (snd p) = true /\ g_ok (snd p)) ->
  blei_line2doc F (blei_text d ++ [chr_nl]) = Ok (map (fun p => (fst p, rnd (snd p))) d).
Proof.
  intros d G. unfold blei_line2doc. rewrite blei_words_text by (intros p Hp _; apply G; auto).
  assert (Ef : filter (fun p => w_keep F (snd p)) d = d).
  { clear - G. induction d as [|p d IH]; [reflexivity|]. cbn [filter].
    rewrite (proj1 (G p (or_introl eq_refl))). f_equal. apply IH. intros; apply G; right; auto. }
  rewrite Ef, parse_show_Z. cbn [of_option rbind]. rewrite map_length, Z.eqb_refl. cbn [negb].
  rewrite map_map. apply rmapM_all. apply Forall2_map_l'. apply Forall2_refl_in.
  intros [i w] Hp. destruct (G _ Hp) as (_ & T & NC & P). cbn [fst snd] in *.
  unfold blei_pair. cbn [fst snd]. rewrite rsplit_colon_pair by auto. unfold blei_field.
  rewrite parse_show_Z, P. reflexivity.
Qed.

Lemma blei_line2doc_bad : forall d p, (forall p, In p d -> w_keep F (snd p) = true -> g_ok (snd p)) ->
  In p d -> w_keep F (snd p) = false -> blei_line2doc F (blei_text d ++ [chr_nl]) = Err ValueError.
Proof.
  intros d p G Hp K. unfold blei_line2doc. rewrite blei_words_text by auto.
  rewrite parse_show_Z. cbn [of_option rbind]. rewrite map_length.
  assert (L : (length (filter (fun p => w_keep F (snd p)) d) < length d)%nat).
  { clear - Hp K. induction d as [|q d IH]; [destruct Hp|]. cbn [filter length].
    assert (Lf : (length (filter (fun p => w_keep F (snd p)) d) <= length d)%nat).
    { clear. induction d as [|q d IH]; [auto|]. cbn [filter length]. destruct (w_keep F (snd q)); cbn [length]; lia. }
    destruct Hp as [->|Hp]; [rewrite K; lia|]. specialize (IH Hp). destruct (w_keep F (snd q)); cbn [length]; lia. }
  replace (_ =? _) with false by lia. reflexivity.
Qed.
End Blei.

(** ** Vocabulary files *)

Lemma rstrip_token : forall w t, token w -> Forall (fun c => is_space c = true) t -> rstrip is_space (w ++ t) = w.
Proof. intros w t [_ NS] F. rewrite rstrip_app_sp by auto. apply rstrip_nosp; auto. Qed.

(** ** Counting words *)

Definition wcount (w : pystr) (ws : list pystr) : Z := Z.of_nat (count_occ eq_dec ws w).

Lemma counter_app : forall ws ws', counter (ws ++ ws') = fold_left counter_add ws' (counter ws).
Proof. intros. unfold counter. apply fold_left_app. Qed.

Lemma counter_get : forall ws w, dget (counter ws) w = if wcount w ws =? 0 then None else Some (wcount w ws).
Proof.
  induction ws as [|x ws IH] using rev_ind; intros w; [reflexivity|].
  rewrite counter_app. cbn [fold_left]. unfold counter_add.
  assert (E : wcount w (ws ++ [x]) = wcount w ws + (if eq_dec x w then 1 else 0)).
  { unfold wcount. rewrite count_occ_app. cbn [count_occ]. destruct (eq_dec x w); lia. }
  rewrite E. destruct (eq_dec x w) as [->|NE].
  - rewrite dget_dset_same, IH. assert (0 <= wcount w ws) by (unfold wcount; lia).
    destruct (wcount w ws =? 0) eqn:E0.
    + replace (wcount w ws + 1 =? 0) with false by lia. f_equal; lia.
    + replace (wcount w ws + 1 =? 0) with false by lia. reflexivity.
  - rewrite dget_dset_other by congruence. rewrite IH, Z.add_0_r. reflexivity.
Qed.

Lemma counter_NoDup : forall ws, NoDup (dkeys (counter ws)).
Proof.
  induction ws as [|x ws IH] using rev_ind; [constructor|].
  rewrite counter_app. cbn [fold_left]. apply NoDup_dset; auto.
Qed.

(** The reading loop is a [Counter] of the known words, ids put in place of words. *)
Lemma low_doc_ids_counter : forall m ws,
  low_doc_ids m ws = map (fun wc => (dget_or m (fst wc) 0, snd wc)) (counter (filter (dmem m) ws)).
Proof.
  intros m ws. unfold low_doc_ids.
  set (step := fun (s : list pystr * dict pystr Z) (w : pystr) => _).
  assert (I : forall ws, fold_left step ws ([], []) = (dkeys (counter (filter (dmem m) ws)), counter (filter (dmem m) ws))).
  { clear ws. induction ws as [|w ws IH] using rev_ind; [reflexivity|].
    rewrite fold_left_app, IH. cbn [fold_left]. rewrite filter_app. cbn [filter]. unfold step at 1.
    destruct (dmem m w); [|rewrite app_nil_r; reflexivity].
    rewrite counter_app. cbn [fold_left]. f_equal. unfold counter_add.
    destruct (dmem (counter (filter (dmem m) ws)) w) eqn:E.
    - apply dmem_true in E. rewrite dkeys_dset_in by auto. reflexivity.
    - apply dmem_false in E. rewrite dkeys_dset_notin by auto. reflexivity. }
  rewrite I. unfold dkeys. rewrite map_map. apply map_ext_in. intros [w n] Hin. cbn [fst snd]. f_equal.
  unfold dget_or. rewrite (In_dget _ w n); [reflexivity | apply counter_NoDup | exact Hin].
Qed.

Lemma counter_block : forall n w c, ~ In w (dkeys c) ->
  fold_left counter_add (repeat w (S n)) c = c ++ [(w, Z.of_nat (S n))].
Proof.
  intros n w c NI. assert (H : forall n k, fold_left counter_add (repeat w n) (c ++ [(w, k)]) = c ++ [(w, k + Z.of_nat n)]).
  { clear n. induction n as [|n IH]; intros k; cbn [repeat fold_left].
    - do 3 f_equal. lia.
    - assert (E : counter_add (c ++ [(w, k)]) w = c ++ [(w, k + 1)]).
      { unfold counter_add. rewrite dget_app. rewrite (proj2 (dget_None c w) NI). cbn [dget].
        destruct (eq_dec w w); [|congruence]. clear - NI. induction c as [|[a b] c IHc]; cbn [app dset].
        - destruct (eq_dec w w); [reflexivity | congruence].
        - destruct (eq_dec a w) as [->|NE]; [exfalso; apply NI; left; reflexivity|]. f_equal.
          apply IHc. intros X; apply NI; right; exact X. }
      rewrite E, IH. do 3 f_equal. lia. }
  cbn [repeat fold_left]. unfold counter_add at 2. rewrite (proj2 (dget_None c w) NI), dset_notin by auto.
  rewrite H. do 3 f_equal. lia.
Qed.

Lemma counter_blocks : forall (d : list (pystr * nat)) c,
  NoDup (map fst d) -> (forall w, In w (map fst d) -> ~ In w (dkeys c)) -> Forall (fun p => (0 < snd p)%nat) d ->
  fold_left counter_add (concat (map (fun p => repeat (fst p) (snd p)) d)) c =
  c ++ map (fun p => (fst p, Z.of_nat (snd p))) d.
Proof.
  induction d as [|[w n] d IH]; intros c ND NI P; cbn [map concat fst snd].
  - rewrite app_nil_r. reflexivity.
  - inversion ND; subst. inversion P; subst. cbn [snd] in *. rewrite fold_left_app.
    destruct n as [|n]; [lia|]. rewrite counter_block by (apply NI; left; reflexivity).
    rewrite IH; auto.
    + rewrite <- app_assoc. reflexivity.
    + intros w' Hw'. unfold dkeys. rewrite map_app, in_app_iff. cbn [map fst]. intros [X|[X|[]]].
      * revert X. apply NI. right; exact Hw'.
      * subst w'. apply H1. exact Hw'.
Qed.

Lemma wcount_repeat : forall w x n, wcount w (repeat x n) = if eq_dec x w then Z.of_nat n else 0.
Proof.
  intros w x n. unfold wcount. destruct (eq_dec x w) as [->|NE].
  - induction n; cbn [repeat count_occ]; [reflexivity|]. destruct (eq_dec w w); [lia | congruence].
  - induction n; cbn [repeat count_occ]; [reflexivity|]. destruct (eq_dec x w); [congruence | exact IHn].
Qed.

Lemma wcount_app : forall w a b, wcount w (a ++ b) = wcount w a + wcount w b.
Proof. intros. unfold wcount. rewrite count_occ_app. lia. Qed.

Lemma wcount_filter : forall (f : pystr -> bool) w ws, f w = true -> wcount w (filter f ws) = wcount w ws.
Proof.
  intros f w ws Hf. unfold wcount. f_equal. induction ws as [|x ws IH]; [reflexivity|]. cbn [filter count_occ].
  destruct (eq_dec x w) as [->|NE].
  - rewrite Hf. cbn [count_occ]. destruct (eq_dec w w); [congruence | congruence].
  - destruct (f x); cbn [count_occ]; [destruct (eq_dec x w); congruence | exact IH].
Qed.

Lemma wcount_pos : forall w ws, In w ws <-> 0 < wcount w ws.
Proof. intros. unfold wcount. rewrite (count_occ_In (eq_dec (A := pystr))). split; intros; lia. Qed.

(** Membership in a document that was read. *)
Lemma In_low_doc_ids : forall m ws i n,
  In (i, n) (low_doc_ids m ws) <-> exists w, dget m w = Some i /\ n = wcount w ws /\ 0 < n.
Proof.
  intros m ws i n. rewrite low_doc_ids_counter, in_map_iff. split.
  - intros ([w c] & E & Hin). cbn [fst snd] in E. injection E as E1 E2.
    apply In_dget in Hin; [|apply counter_NoDup]. rewrite counter_get in Hin.
    destruct (wcount w _ =? 0) eqn:E0; [discriminate|]. injection Hin as Hin.
    assert (P : 0 < wcount w (filter (dmem m) ws)) by (unfold wcount in *; lia).
    apply wcount_pos in P as P'. apply filter_In in P'. destruct P' as [_ K].
    exists w. unfold dget_or in E1. unfold dmem in K. destruct (dget m w) eqn:Em; [|discriminate].
    assert (Kt : dmem m w = true) by (unfold dmem; rewrite Em; reflexivity).
    rewrite wcount_filter in Hin, P by exact Kt. subst. repeat split; auto.
  - intros (w & Em & -> & P). exists (w, wcount w ws). cbn [fst snd]. split.
    + unfold dget_or. rewrite Em. reflexivity.
    + assert (Kt : dmem m w = true) by (unfold dmem; rewrite Em; reflexivity).
      apply dget_In. rewrite counter_get, wcount_filter by exact Kt.
      replace (wcount w ws =? 0) with false by lia. reflexivity.
Qed.

Lemma NoDup_low_doc_ids : forall m ws, (forall w w' i, dget m w = Some i -> dget m w' = Some i -> w = w') ->
  NoDup (map fst (low_doc_ids m ws)).
Proof.
  intros m ws INJ. rewrite low_doc_ids_counter, map_map. cbn [fst].
  pose proof (counter_NoDup (filter (dmem m) ws)) as ND.
  assert (K : forall wc, In wc (counter (filter (dmem m) ws)) -> dmem m (fst wc) = true).
  { intros [w c] Hin. apply In_dget in Hin; [|exact ND]. rewrite counter_get in Hin.
    destruct (wcount w _ =? 0) eqn:E0; [discriminate|].
    assert (P : 0 < wcount w (filter (dmem m) ws)) by (unfold wcount in *; lia).
    apply wcount_pos in P. apply filter_In in P. tauto. }
  unfold dkeys in ND. induction (counter (filter (dmem m) ws)) as [|[w c] l IH]; [constructor|].
  cbn [map fst] in *. inversion ND; subst. constructor; [|apply IH; auto; intros; apply K; right; auto].
  intros X. apply in_map_iff in X. destruct X as ([w' c'] & E & Hin). cbn [fst] in E.
  assert (K1 := K (w, c) (or_introl eq_refl)). assert (K2 := K (w', c') (or_intror Hin)). cbn [fst] in *.
  unfold dmem in *. unfold dget_or in E.
  destruct (dget m w) eqn:E1; [|discriminate]. destruct (dget m w') eqn:E2; [|discriminate]. subst.
  assert (w = w') by (eapply INJ; eassumption). subst. apply H1. apply in_map_iff. exists (w', c'). auto.
Qed.

(** Reversing an injective mapping. *)
Lemma revdict_iff : forall {K V} `{EqDec K} `{EqDec V} (m : dict K V) w i, NoDup (dkeys m) -> NoDup (dvals m) ->
  (dget (revdict m) w = Some i <-> dget m i = Some w).
Proof.
  intros K V HK HV m w i NK NV. unfold revdict.
  rewrite dict_of_NoDup by (rewrite map_map; exact NV).
  rewrite (dget_iff (V := K)) by (unfold dkeys; rewrite map_map; exact NV).
  rewrite (dget_iff m i w NK). rewrite in_map_iff. split.
  - intros ([a b] & E & Hin). cbn [fst snd] in E. injection E as <- <-. exact Hin.
  - intros Hin. exists (i, w). auto.
Qed.
