(** C100: removal of wiki markup *)
From Verif Require Import Base Str Tfidf_Spec Text_Model Text_Properties Regex_Model Wiki_Spec Regex_Proofs Wiki_Model Wiki_Proofs Wiki_Proofs2 Wiki_Proofs3 Wiki_Proofs4 Wiki_Proofs5 Wiki_Proofs6.
Local Open Scope nat_scope.

Definition no_names (n : pystr) : option N := None.
Notation clean := (filter_wiki ascii_word is_digit no_names true true).
Notation interlinks := (find_interlinks ascii_word is_digit no_names).

(** ** Templates *)
(** Exactly the templates go: from each "{{" outside a template to the brace that closes as many as are open, or to the end of the text. *)
Theorem template_exact : forall s, cleaned s (remove_template s).
Proof. exact template_cleaned. Qed.
Print Assumptions template_exact.
Theorem template_none_left : forall s, no_template (remove_template s) /\ subseq (remove_template s) s.
Proof. intros s. apply cleaned_none, template_cleaned. Qed.
Print Assumptions template_none_left.
(** A text has only one such result. *)
Theorem template_unique : forall s u v, cleaned s u -> cleaned s v -> u = v.
Proof.
  assert (K : forall s u, cleaned s u -> u = remove_template s).
  { intros s u H. induction H as [s H|p t r u H T C IH|p t H U].
    - symmetry. apply template_plain, H.
    - rewrite template_step by assumption. f_equal. exact IH.
    - symmetry. apply template_open; assumption. }
  intros s u v A B. rewrite (K s u A), (K s v B). reflexivity.
Qed.
Print Assumptions template_unique.
Example template_example :
  remove_template (str "a {{Infobox|x={{nested|{y}}}|z}} b { c } {{d}}{{e}}f") = str "a  b { c } f" /\
  remove_template (str "a {{never closed } b") = str "a ".
Proof. split; vm_compute; reflexivity. Qed.
(** One brace too many in a template loses the rest of the article. *)
Theorem template_brace_refuted : exists s t, s = str "{{chem|H{2}}" ++ t /\ t = str " the article" /\ remove_template s = [].
Proof. exists (str "{{chem|H{2}} the article"), (str " the article"). repeat split; vm_compute; reflexivity. Qed.
Print Assumptions template_brace_refuted.
(** Templates go before comments: braces in a comment count. *)
Theorem comment_braces_refuted : exists witness, witness = str "one <!-- {{ --> two" /\ (clean witness = str "one <!-- " /\ clean (str "one <!-- x --> two") = str "one  two").
Proof. exists (str "one <!-- {{ --> two"). split; [reflexivity|]. split; vm_compute; reflexivity. Qed.
Print Assumptions comment_braces_refuted.

(** ** Files *)
(** Each file becomes its caption, and the text around is untouched. *)
Theorem files_captioned : forall fs g, Forall (fun p => settled (fst p) /\ good_file (snd p)) fs -> settled g ->
  remove_file (concat (map (fun p => fst p ++ file_source (snd p)) fs) ++ g) = concat (map (fun p => fst p ++ fcaption (snd p)) fs) ++ g.
Proof. exact files_exact. Qed.
Print Assumptions files_captioned.
Example files_example :
  remove_file (str "A [[link]] and [[File:cat.jpg|thumb|a cat]], [[image:dog.jpg|a dog]]!") = str "A [[link]] and a cat, a dog!".
Proof. vm_compute. reflexivity. Qed.
Example files_instance : exists fs g, fs <> [] /\ Forall (fun p => settled (fst p) /\ good_file (snd p)) fs /\ settled g /\
  concat (map (fun p => fst p ++ file_source (snd p)) fs) ++ g = str "A cat [[File:cat.jpg|thumb|a cat]] here".
Proof.
  exists [(str "A cat ", mkFile (str "[[File:") (str "cat.jpg|thumb") (str "a cat"))], (str " here"). split; [discriminate|]. split; [|split; [apply settled_none; noin | reflexivity]].
  constructor; [|constructor]. split; [apply settled_none; noin|]. split; [left; reflexivity|]. split; [noin|]. apply Forall_forall. intros c I J. vm_compute in I, J.
  repeat (destruct I as [<-|I]; [vm_compute in J; repeat (destruct J as [J|J]; [discriminate J|]); destruct J|]). destruct I.
Qed.
(** Without a caption the file keeps its brackets and its name. *)
Theorem file_uncaptioned_refuted : exists witness, witness = str "a [[File:cat.jpg]] b" /\ (remove_file witness = str "a [[File:cat.jpg b" /\ clean witness = str "a File:cat.jpg b").
Proof. exists (str "a [[File:cat.jpg]] b"). split; [reflexivity|]. split; vm_compute; reflexivity. Qed.
Print Assumptions file_uncaptioned_refuted.
(** A link inside a caption ends the file too early. *)
Theorem file_link_refuted : exists witness, witness = str "[[File:cat.jpg|a [[cat]] asleep]] b" /\ (remove_file witness = str "a [[cat asleep]] b" /\ remove_file (str "[[File:cat.jpg|[[cat|kitten]] asleep]] b") = str "kitten asleep]] b").
Proof. exists (str "[[File:cat.jpg|a [[cat]] asleep]] b"). split; [reflexivity|]. split; vm_compute; reflexivity. Qed.
Print Assumptions file_link_refuted.

(** ** The whole removal *)
Section Wiki.
Context (wordc decimal : N -> bool) (n2cp : pystr -> option N).
(** No tag is left: nowhere in the result stands a "<" with a ">" after it. *)
Theorem no_tags_left : forall promote simplify raw, ~ tagged (filter_wiki wordc decimal n2cp promote simplify raw).
Proof. intros. apply markup_no_tags. Qed.
Theorem no_brackets_left : forall simplify raw, ~ In 91%N (filter_wiki wordc decimal n2cp true simplify raw) /\ ~ In 93%N (filter_wiki wordc decimal n2cp true simplify raw).
Proof.
  intros simplify raw. unfold filter_wiki, remove_markup. rewrite promoted. split; intros I; apply filter_In in I as (_ & I); vm_compute in I; discriminate.
Qed.
Theorem never_longer : forall promote simplify t, length (remove_markup wordc decimal promote simplify t) <= length t.
Proof. intros. apply markup_shorter. Qed.
(** Text without markup is untouched. *)
Theorem plain_untouched : wordc 124%N = false -> wordc 93%N = false -> forall promote simplify s, (forall c, In c (str "<[]|&") -> ~ In c s) -> no_template s -> calm s -> no_attribute s ->
  filter_wiki wordc decimal n2cp promote simplify s = s.
Proof.
  intros W1 W2 promote simplify s H NT C NA. unfold filter_wiki. rewrite decode_plain by (apply H; inlist).
  assert (Q : quiet s).
  { intros a c b E [->| ->]; [exfalso; apply (H 124%N); [inlist | rewrite E; apply in_or_app; right; left; reflexivity]|]. destruct a as [|x a] using rev_ind; [left; reflexivity|]. right. exists a, x. split; [reflexivity|].
    intros I. apply (C a x b); [rewrite E, <- app_assoc; reflexivity|]. destruct I as [<-|[<-|[<-|[]]]]; inlist. }
  apply markup_plain; try assumption; try (apply H; inlist).
  intros (u & v & E). apply (C u 33%N v E). inlist.
Qed.
(** In articles of text, links, comments, footnotes and tags exactly what a reader sees remains. *)
Theorem markup_exact : wordc 124%N = false -> wordc 93%N = false -> forall segs, Forall good_seg segs -> no_attribute (concat (map bracketed segs)) ->
  filter_wiki wordc decimal n2cp true true (concat (map source segs)) = concat (map shown_text segs).
Proof. intros. apply article_exact; assumption. Qed.
(** [find_interlinks] gives all links with what they show, in order. *)
Theorem interlinks_found : wordc 124%N = false -> wordc 93%N = false -> forall segs, Forall good_seg segs -> Forall good_link segs -> no_attribute (concat (map linked segs)) ->
  find_interlinks wordc decimal n2cp (concat (map source segs)) = concat (map links_of segs).
Proof. intros. apply interlinks_exact; assumption. Qed.
(** Tokens are the maximal runs of letters and underscores, within the limits of length, and not with an underscore in front. *)
Theorem tokens_exact : forall (lower : pystr -> pystr) content lo hi (low : bool) t, In t (tokenize wordc decimal lower content lo hi low) <->
  In t (words (fun c => decimal c || negb (wordc c)) (if low then lower content else content)) /\ (lo <= Z.of_nat (length t) <= hi)%Z /\ (forall t', t <> 95%N :: t').
Proof.
  intros lower content lo hi low t. unfold tokenize. rewrite filter_In, simple_tokenize_exact, !andb_true_iff, !Z.leb_le, negb_true_iff.
  assert (E : begins (str "_") t = false <-> (forall t', t <> 95%N :: t')).
  { split.
    - intros B t' ->. revert B. vm_compute. discriminate.
    - intros H. destruct (begins (str "_") t) eqn:B; [exfalso|reflexivity]. apply begins_iff in B as (t' & ->). apply (H t'). reflexivity. }
  rewrite E. tauto.
Qed.
(** The order of tokens is that of the text. *)
Theorem tokens_order : forall (lower : pystr -> pystr) content lo hi (low : bool), subseq (tokenize wordc decimal lower content lo hi low) (words (fun c => decimal c || negb (wordc c)) (if low then lower content else content)).
Proof.
  intros lower content lo hi low. unfold tokenize. rewrite simple_tokenize_exact. generalize (words (fun c => decimal c || negb (wordc c)) (if low then lower content else content)). intros l.
  match goal with |- subseq (filter ?f l) l => generalize f end. intros f. induction l as [|x l IH]; cbn [filter]; [constructor|]. destruct (f x); constructor; exact IH.
Qed.
End Wiki.
Print Assumptions no_tags_left.
Print Assumptions no_brackets_left.
Print Assumptions never_longer.
Print Assumptions plain_untouched.
Print Assumptions markup_exact.
Print Assumptions interlinks_found.
Print Assumptions tokens_exact.
Print Assumptions tokens_order.

Definition article : list seg :=
  [Txt (str "A "); Lnk (str "Graph theory") (str "graph"); Txt (str " has "); Tag (str "b"); Bare (str "node"); Tag (str "/b"); Txt (str "s"); Ref (str "see Euler"); Cmt (str " check "); Txt (str "."); Tag (str "br /")].
Ltac decide_chars := apply Forall_forall; let c := fresh in let I := fresh in intros c I; vm_compute in I;
  repeat (destruct I as [<-|I]; [first [noin | split; [noin | discriminate]]|]); destruct I.
Ltac no_prefix := let d := fresh in let E := fresh in intros (d & E); vm_compute in E; discriminate E.
Example article_good : Forall good_seg article /\ Forall good_link article.
Proof.
  split; [|repeat constructor; cbn [good_link]; try exact Logic.I; repeat split; try (unfold on_one_line); noin].
  unfold article; repeat match goal with |- Forall good_seg (_ :: _) => apply Forall_cons | |- Forall good_seg [] => apply Forall_nil end; cbn [good_seg]; try decide_chars; unfold name; repeat split; try discriminate; try decide_chars; try (no_prefix);
    try (intros w [<-|[<-|[<-|[<-|[]]]]]; no_prefix); intros n [<-|[<-|[<-|[]]]] [E|E]; try discriminate E; revert E; no_prefix.
Qed.
Example article_shown :
  concat (map source article) = str "A [[Graph theory|graph]] has <b>[[node]]</b>s<ref>see Euler</ref><!-- check -->.<br />" /\
  clean (concat (map source article)) = str "A graph has nodes." /\
  interlinks (concat (map source article)) = [(str "Graph theory", str "graph"); (str "node", str "node")].
Proof. repeat split; vm_compute; reflexivity. Qed.
Example markup_example :
  clean (str "Text [http://x.org a site], [[Category:Maths]]x <math>a<b</math>.") = str "Text  a site, x ." /\
  clean (str "{| class=x" ++ [nl] ++ str "|-" ++ [nl] ++ str "| a || b" ++ [nl] ++ str "|}" ++ [nl] ++ str "end") = repeat nl 5 ++ str " a " ++ repeat nl 2 ++ str " b" ++ repeat nl 3 ++ str "end".
Proof. split; vm_compute; reflexivity. Qed.
Example tokens_example : tokenize ascii_word is_digit ascii_lower (str "The _x_ of 42 Graphs a") 2 15 true = [str "the"; str "of"; str "graphs"].
Proof. vm_compute. reflexivity. Qed.

(** ** Where the removal goes wrong *)
(** The pattern of files knows "image" without a colon: articles whose title begins with it are no links, and if the link shows its title the next link is lost, too. *)
Theorem image_article_refuted : exists witness, witness = str "see [[Imagery|images]] and [[cat]]" /\ (interlinks witness = [(str "cat", str "cat")] /\ interlinks (str "see [[Image processing]] and [[cat]]") = [] /\
  interlinks (str "see [[Digital image]]") = [(str "Digital image", str "Digital image")]).
Proof. exists (str "see [[Imagery|images]] and [[cat]]"). split; [reflexivity|]. repeat split; vm_compute; reflexivity. Qed.
Print Assumptions image_article_refuted.
(** A link whose text begins with a minus is taken for a row of a table; the rest of the line is lost. *)
Theorem dash_link_refuted : exists witness, witness = str "the [[Suffix|-ing]] and [[cat]]" ++ [nl] ++ str "[[dog]]" /\ (interlinks witness = [(str "dog", str "dog")] /\ 
  interlinks (str "the [[Suffix|ing]] and [[cat]]" ++ [nl] ++ str "[[dog]]") = [(str "Suffix", str "ing"); (str "cat", str "cat"); (str "dog", str "dog")]).
Proof. exists (str "the [[Suffix|-ing]] and [[cat]]" ++ [nl] ++ str "[[dog]]"). split; [reflexivity|]. split; vm_compute; reflexivity. Qed.
Print Assumptions dash_link_refuted.
(** Only three passes are made: deeper nesting is not resolved. *)
Theorem four_levels_refuted : exists witness, witness = str "[a|[b|[c|[d|e]]]]" /\ (clean (str "[a|[b|[c|d]]]") = str "d" /\ clean witness = str "a|e").
Proof. exists (str "[a|[b|[c|[d|e]]]]"). split; [reflexivity|]. split; vm_compute; reflexivity. Qed.
Print Assumptions four_levels_refuted.
(** Two comparisons are taken for a tag. *)
Theorem comparisons_refuted : exists witness, witness = str "if a < b and c > d then" /\ (clean witness = str "if a  d then").
Proof. exists (str "if a < b and c > d then"). split; [reflexivity|]. vm_compute. reflexivity. Qed.
Print Assumptions comparisons_refuted.
(** Exclamation marks after a space or in a row are taken for cells of tables. *)
Theorem exclamation_refuted : exists witness, witness = str "so cool!! yes" /\ (clean witness = str "so cool" ++ [nl; nl] ++ str " yes").
Proof. exists (str "so cool!! yes"). split; [reflexivity|]. vm_compute. reflexivity. Qed.
Print Assumptions exclamation_refuted.
