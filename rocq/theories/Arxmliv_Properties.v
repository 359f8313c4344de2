(** Tokens of articles in XML. *)
From Verif Require Import Base Str Text_Model Text_Proofs Arxmliv_Model.

(** ** Words of texts in pieces *)
Lemma takew_app : forall f a b, starts f b = false -> takew f (a ++ b) = takew f a.
Proof. intros f a b H. induction a as [|c a IH]; cbn; [destruct b as [|d b]; [reflexivity | cbn in H |- *; rewrite H; reflexivity] | rewrite IH; reflexivity]. Qed.
Lemma dropw_app : forall f a b, starts f b = false -> dropw f (a ++ b) = dropw f a ++ b.
Proof. intros f a b H. induction a as [|c a IH]; cbn; [destruct b as [|d b]; [reflexivity | cbn in H |- *; rewrite H; reflexivity] | destruct (f c); [exact IH | reflexivity]]. Qed.
Lemma dropw_short : forall f s, length (dropw f s) <= length s.
Proof. intros f s. induction s as [|c s IH]; cbn; [lia|]. destruct (f c); cbn; lia. Qed.
Lemma find_app : forall f n a b, length a <= n -> starts f b = false -> finditer [plus f] (a ++ b) = finditer [plus f] a ++ finditer [plus f] b.
Proof.
  intros f. induction n as [|n IH]; intros a b L S; (destruct a as [|c a]; [reflexivity|]); cbn [length] in L; [lia|]. cbn [app]. rewrite !finditer_plus. destruct (f c) eqn:E; [|apply IH; [lia | exact S]].
  cbn [takew]. rewrite E, takew_app, dropw_app by exact S. cbn [app]. f_equal. apply IH; [pose proof (dropw_short f a); lia | exact S].
Qed.
Lemma takew_nonempty : forall f s, Forall (fun w => w <> []) (finditer [plus f] s).
Proof.
  intros f s. remember (length s) as n eqn:L. assert (L' : length s <= n) by lia. clear L. revert s L'. induction n as [|n IH]; intros s L; (destruct s as [|c s]; [constructor|]); cbn [length] in L; [lia|].
  rewrite finditer_plus. destruct (f c) eqn:E; [|apply IH; lia]. constructor; [cbn; rewrite E; discriminate | apply IH; pose proof (dropw_short f s); lia].
Qed.

Section P.
Context (wordc decimal digit : N -> bool) (repr : pystr -> pystr) (lower : pystr -> pystr).
Notation tok := (simple_tokenize wordc decimal).
(** ** Spec *)
(** a document; a text comes in pieces *)
Inductive node : Type := Text (pieces : list pystr) | Elem (name : pystr) (attr : dict pystr pystr) (kids : list node).
Fixpoint events (n : node) : list event :=
  match n with Text pieces => map Chars pieces | Elem name attr kids => Start name attr :: flat_map events kids ++ [End name] end.
(** all nodes in the order of the document, each with the name of the element it is in *)
Fixpoint walk (parent : pystr) (n : node) : list (pystr * node) := (parent, n) :: match n with Text _ => [] | Elem name _ kids => flat_map (walk name) kids end.
Definition the_words (s : pystr) : list token := map Word (filter (fun t => negb (isdigit digit t)) (tok s)).
Definition formula (attr : dict pystr pystr) (tex : pystr) : Prop := dget attr (str "mode") = Some (str "inline") /\ dget attr (str "tex") = Some tex /\ tex <> [] /\ isdigit digit tex = false.
Inductive own : pystr * node -> list token -> Prop :=
| own_text pieces : own (str "p", Text pieces) (flat_map the_words pieces)
| own_math attr tex kids : formula attr tex -> own (str "p", Elem (str "Math") attr kids) [Math (str "$" ++ repr tex ++ str "$")]
| own_elem parent name attr kids : parent <> str "p" \/ name <> str "Math" \/ (forall tex, ~ formula attr tex) -> own (parent, Elem name attr kids) []
| own_not parent pieces : parent <> str "p" -> own (parent, Text pieces) [].

Notation handle := (handle wordc decimal digit repr).
Notation run := (rfold handle).
Lemma run_app : forall a b h, run (a ++ b) h = let* h := run a h in run b h.
Proof. induction a as [|e a IH]; intros b h; [reflexivity|]. cbn [app rfold]. destruct (handle h e); cbn [rbind]; [apply IH | reflexivity]. Qed.
Lemma chars_p : forall pieces path ts, run (map Chars pieces) (Handler (str "p" :: path) ts) = Ok (Handler (str "p" :: path) (ts ++ flat_map the_words pieces)).
Proof.
  induction pieces as [|a pieces IH]; intros path ts; [cbn; rewrite app_nil_r; reflexivity|]. cbn [map rfold flat_map]. cbn [Arxmliv_Model.handle top_is_p Arxmliv_Model.path]. destruct (eq_dec (str "p") (str "p")) as [_|N]; [|congruence]. cbn [rbind tokens]. rewrite IH, <- app_assoc. reflexivity.
Qed.
Lemma chars_other : forall pieces q path ts, q <> str "p" -> run (map Chars pieces) (Handler (q :: path) ts) = Ok (Handler (q :: path) ts).
Proof.
  induction pieces as [|a pieces IH]; intros q path ts N; [reflexivity|]. cbn [map rfold]. cbn [Arxmliv_Model.handle top_is_p Arxmliv_Model.path]. destruct (eq_dec q (str "p")) as [E|_]; [congruence|]. cbn [rbind]. apply IH, N.
Qed.
Lemma start_exact : forall q path ts name attr kids, exists more, own (q, Elem name attr kids) more /\ handle (Handler (q :: path) ts) (Start name attr) = Ok (Handler (name :: q :: path) (ts ++ more)).
Proof.
  intros q path ts name attr kids. cbn [Arxmliv_Model.handle top_is_p Arxmliv_Model.path tokens].
  destruct (eq_dec name (str "Math")) as [->|N]; cbn [rbind]; [|exists []; split; [apply own_elem; auto | reflexivity]].
  destruct (eq_dec q (str "p")) as [->|N]; cbn [andb]; [|exists []; split; [apply own_elem; auto | reflexivity]].
  unfold attr_get. destruct (eq_dec (match dget attr (str "mode") with Some v => v | None => [] end) (str "inline")) as [Em|Nm]; cbn [andb].
  - destruct (dget attr (str "tex")) as [[|c tex]|] eqn:Et.
    + exists []. split; [|reflexivity]. apply own_elem. right. right. intros tex (_ & E & Ne & _). congruence.
    + destruct (isdigit digit (c :: tex)) eqn:D; cbn [negb].
      * exists []. split; [|reflexivity]. apply own_elem. right. right. intros t (_ & E & _ & D'). congruence.
      * eexists. split; [|reflexivity]. apply own_math. split; [|split; [exact Et | split; [discriminate | exact D]]]. destruct (dget attr (str "mode")); [congruence | discriminate Em].
    + exists []. split; [|reflexivity]. apply own_elem. right. right. intros tex (_ & E & _). congruence.
  - exists []. split; [|reflexivity]. apply own_elem. right. right. intros tex (E & _). rewrite E in Nm. congruence.
Qed.
(** tokens of several nodes, one after another *)
Lemma nodes_exact : forall n q path ts, exists tss, Forall2 own (walk q n) tss /\ run (events n) (Handler (q :: path) ts) = Ok (Handler (q :: path) (ts ++ concat tss)).
Proof.
  fix IH 1. intros [pieces|name attr kids] q path ts.
  - cbn [walk events]. destruct (eq_dec q (str "p")) as [->|N].
    + exists [flat_map the_words pieces]. split; [repeat constructor|]. rewrite chars_p. cbn [concat]. rewrite app_nil_r. reflexivity.
    + exists [[]]. split; [constructor; [apply own_not, N | constructor]|]. rewrite chars_other by exact N. cbn [concat]. rewrite !app_nil_r. reflexivity.
  - cbn [walk events]. destruct (start_exact q path ts name attr kids) as (more & O & S). cbn [rfold]. rewrite S. cbn [rbind].
    assert (K : forall ts, exists tss, Forall2 own (flat_map (walk name) kids) tss /\ run (flat_map events kids) (Handler (name :: q :: path) ts) = Ok (Handler (name :: q :: path) (ts ++ concat tss))).
    { clear O S more ts. induction kids as [|k kids IHk]; intros ts; [exists []; split; [constructor | cbn; rewrite app_nil_r; reflexivity]|].
      destruct (IH k name (q :: path) ts) as (t1 & F1 & R1). destruct (IHk (ts ++ concat t1)) as (t2 & F2 & R2). exists (t1 ++ t2). split; [cbn [flat_map]; apply Forall2_app; assumption|].
      cbn [flat_map]. rewrite run_app, R1. cbn [rbind]. rewrite R2, concat_app, app_assoc. reflexivity. }
    destruct (K (ts ++ more)) as (tss & F & R). exists (more :: tss). split; [constructor; assumption|]. rewrite run_app, R. cbn [rbind rfold Arxmliv_Model.handle Arxmliv_Model.path tokens concat]. rewrite app_assoc. reflexivity.
Qed.
(** The tokens are those of the texts and of the formulas directly in a paragraph, in the order of the document. *)
Theorem xml_exact : forall root, exists tss, Forall2 own (walk [] root) tss /\ xml_tokenize wordc decimal digit repr (events root) = Ok (concat tss).
Proof. intros root. destruct (nodes_exact root [] [] []) as (tss & F & R). exists tss. split; [exact F|]. unfold xml_tokenize. replace (run (events root) handler0) with (Ok (Handler [[]] (concat tss))) by (symmetry; exact R). reflexivity. Qed.
(** which says what they are *)
Theorem own_one : forall pn a b, own pn a -> own pn b -> a = b.
Proof.
  intros pn a b A B. inversion A; subst; inversion B; subst; try reflexivity; try congruence.
  all: repeat match goal with H : formula _ _ |- _ => let X := fresh in pose proof (proj1 (proj2 H)) as X; revert H end; intros; try congruence.
  all: exfalso; repeat match goal with H : _ \/ _ |- _ => destruct H as [H|H] end; try congruence; match goal with H : forall t, ~ formula _ t, G : formula _ ?t |- _ => exact (H t G) end.
Qed.
(** Pieces of a text have the words of the whole unless a word is cut. *)
Definition letter (c : N) : bool := negb (decimal c) && wordc c.
Theorem pieces_exact : forall a b, (starts letter b = false \/ starts letter (rev a) = false) -> the_words (a ++ b) = the_words a ++ the_words b.
Proof.
  intros a b H. unfold the_words. rewrite <- map_app, <- filter_app. f_equal. f_equal. unfold simple_tokenize, PAT_ALPHABETIC. destruct H as [H|H]; [apply (find_app letter (length a)); [lia | exact H]|].
  destruct a as [|x a _] using rev_ind; [reflexivity|]. rewrite rev_app_distr in H. cbn in H. rewrite <- app_assoc. cbn [app].
  change (finditer [plus letter] (a ++ x :: b) = finditer [plus letter] (a ++ [x]) ++ finditer [plus letter] b). rewrite !(find_app letter (length a)) by (lia || exact H). rewrite !finditer_plus, H. rewrite <- app_assoc. reflexivity.
Qed.
(** ** Normalization *)
Definition norm (t : token) : token := match t with Word w => Word (lower w) | Math s => Math s end.
Definition proper (t : token) : Prop := match t with Word w => w <> [] | Math s => exists r, s = str "$" ++ r end.
Lemma handle_proper : forall h e h', Forall proper (tokens h) -> handle h e = Ok h' -> Forall proper (tokens h').
Proof.
  intros h e h' F H. destruct e as [name attr|name|text]; cbn [Arxmliv_Model.handle] in H.
  - match type of H with (let* p := ?X in _) = _ => destruct X as [p|] end; [|discriminate H]. cbn [rbind] in H. injection H as <-. cbn [tokens]. apply Forall_app. split; [exact F|].
    match goal with |- Forall _ (if ?b then _ else _) => destruct b end; [|constructor]. constructor; [|constructor]. eexists. reflexivity.
  - destruct (Arxmliv_Model.path h); [discriminate H|]. injection H as <-. exact F.
  - destruct (top_is_p h) as [[|]|]; cbn [rbind] in H; [| |discriminate H]; injection H as <-; [|exact F]. cbn [tokens]. apply Forall_app. split; [exact F|]. apply Forall_forall. intros t I. apply in_map_iff in I. destruct I as (w & <- & I). apply filter_In in I.
    pose proof (takew_nonempty (fun c => negb (decimal c) && wordc c) text) as X. rewrite Forall_forall in X. apply (X w), (proj1 I).
Qed.
(** Whatever the events, every token is normalized: words are put in lower case, formulas stay. *)
Theorem normalize_exact : forall es ts, xml_tokenize wordc decimal digit repr es = Ok ts -> rmapM (normalize_word lower) ts = Ok (map norm ts).
Proof.
  intros es ts H. unfold xml_tokenize in H. assert (F : Forall proper ts).
  { assert (G : forall es h h', Forall proper (tokens h) -> run es h = Ok h' -> Forall proper (tokens h')).
    { induction es0 as [|e es0 IH]; intros h h' F R; cbn [rfold] in R; [injection R as <-; exact F|]. destruct (handle h e) as [h1|] eqn:E; [|discriminate R]. apply (IH h1 h'); [apply (handle_proper h e h1 F E) | exact R]. }
    destruct (run es handler0) as [h|] eqn:R; [|discriminate H]. cbn [rbind] in H. injection H as <-. apply (G es handler0 h); [constructor | exact R]. }
  clear H. induction F as [|t ts P F IH]; [reflexivity|]. cbn [rmapM map]. rewrite IH. destruct t as [[|c w]|s]; cbn in P; [congruence | reflexivity|]. destruct P as [r ->]. reflexivity.
Qed.
End P.
Print Assumptions xml_exact.
Print Assumptions own_one.
Print Assumptions pieces_exact.
Print Assumptions normalize_exact.

(** ** Examples *)
Definition ascii_letter (c : N) : bool := ((65 <=? c) && (c <=? 90) || (97 <=? c) && (c <=? 122))%N.
Definition ascii_digit (c : N) : bool := ((48 <=? c) && (c <=? 57))%N.
Definition ascii_wordc (c : N) : bool := ascii_letter c || ascii_digit c.
Definition bytes_repr (s : pystr) : pystr := str "b'" ++ s ++ str "'".
Definition toks (es : list event) : result (list token) := xml_tokenize ascii_wordc ascii_digit ascii_digit bytes_repr es.
Definition math (tex : String.string) : node := Elem (str "Math") [(str "mode", str "inline"); (str "tex", str tex)] [Elem (str "XMath") [] [Text [str "inner"]]].
Definition doc : node := Elem (str "document") [] [Text [str "lost"]; Elem (str "p") [] [Text [str "Let the "; str "group 12"]; math "x+y"; math "17"; Text [str "be"]; Elem (str "b") [] [Text [str "bold"]; math "z"]]].
Example doc_example : toks (events doc) = Ok [Word (str "Let"); Word (str "the"); Word (str "group"); Math (str "$b'x+y'$"); Word (str "be")].
Proof. vm_compute. reflexivity. Qed.
(** Violation: formulas are not in the form of the documentation, a dollar sign before and after the expression, but shown as bytes. *)
Theorem formula_refuted : exists es, toks es = Ok [Math (str "$b'x+y'$")] /\ es = events (Elem (str "p") [] [math "x+y"]) /\ str "$b'x+y'$" <> str "$x+y$".
Proof. exists (events (Elem (str "p") [] [math "x+y"])). split; [vm_compute; reflexivity|]. split; [reflexivity | discriminate]. Qed.
(** Violation: a word handed over in two pieces becomes two words. *)
Theorem cut_word_refuted : exists a b, toks (events (Elem (str "p") [] [Text [a; b]])) = Ok [Word (str "the"); Word (str "gro"); Word (str "up")] /\ toks (events (Elem (str "p") [] [Text [a ++ b]])) = Ok [Word (str "the"); Word (str "group")].
Proof. exists (str "the gro"), (str "up"). vm_compute. auto. Qed.
Print Assumptions formula_refuted.
Print Assumptions cut_word_refuted.
