(** C101: pages and sections of wiki dumps *)
From Coq Require Import ZifyBool ZifyNat ZifyN.
From Verif Require Import Base Str Text_Model Text_Properties Utils_Model Utils_Properties Regex_Model Wiki_Spec Regex_Proofs Wiki_Model Dictionary_Model WikiPages_Model WikiPages_Spec WikiPages_Proofs WikiPages_Proofs2.
Local Open Scope nat_scope.

(** ** Pages *)
(** Each page of a dump gives one entry, in order: its title, its text and its id.  The text is empty if the page is not asked for. *)
Theorem pages_exact : forall ns root ps nss f, dump ns root ps -> exists l, extract_pages root nss f = Ok l /\
  Forall2 (fun p a => let '(title, text, pageid) := a in title = Some (p_title p) /\ pageid = p_id p /\ (wanted nss f p -> text = page_text p) /\ (~ wanted nss f p -> text = [])) ps l.
Proof.
  intros ns root ps nss f D. exists (map (entry nss f) ps). split; [apply (extract_entries ns), D|]. clear D. induction ps as [|p ps IH]; cbn [map]; constructor; [|exact IH]. unfold entry. split; [reflexivity|]. split; [reflexivity|].
  pose proof (wantedb_iff nss f p) as W. destruct (wantedb nss f p); split; intros H; try reflexivity; exfalso; [apply H, W; reflexivity | apply W in H; discriminate].
Qed.
Print Assumptions pages_exact.

Section Corpus.
Context (wordc decimal : N -> bool) (lower : pystr -> pystr) (n2cp : pystr -> option N).
Notation clean := (filter_wiki wordc decimal n2cp true true).
Definition tokens_of (w : wcorpus) (p : page) : list pystr := w_tok w (clean (page_text p)) (w_lo w) (w_hi w) (w_low w).
Definition is_text (w : wcorpus) (p : page) : Prop :=
  wanted (w_namespaces w) (w_articles w) p /\ (w_min_tokens w <= Z.of_nat (length (tokens_of w p)))%Z /\ ~ no_article (p_title p).
Definition text_of (w : wcorpus) (p : page) : text_item := (tokens_of w p, if w_metadata w then Some (p_id p, Some (p_title p)) else None).

Lemma picks_filter : forall {A} (P : A -> Prop) (f : A -> bool) l, (forall x, f x = true <-> P x) -> picks P l (filter f l).
Proof.
  intros A P f l H. induction l as [|x l IH]; cbn [filter]; [constructor|]. destruct (f x) eqn:E; constructor; try exact IH; [apply H, E | intros K; apply H in K; congruence].
Qed.
Lemma picks_unique : forall {A} (P : A -> Prop) l r r', picks P l r -> picks P l r' -> r = r'.
Proof.
  intros A P l r r' H. revert r'. induction H as [|x l r X H IH|x l r X H IH]; intros r' H'; inversion H'; subst; try contradiction; [reflexivity | f_equal; auto | auto].
Qed.
Lemma serial_pages : forall {A} (l : list A) n, n <> 0 -> concat (chunkize_serial l (10 * n)) = l.
Proof. intros A l n N0. apply (chunkize_serial_exact l (10 * n)). lia. Qed.
Lemma clean_empty : clean [] = [].
Proof. reflexivity. Qed.
Definition prepared (w : wcorpus) (p : page) : list pystr * option pystr * option pystr :=
  (w_tok w (clean (if wantedb (w_namespaces w) (w_articles w) p then page_text p else [])) (w_lo w) (w_hi w) (w_low w), Some (p_title p), p_id p).

(** A pass gives exactly the wanted pages with enough tokens that are articles, in the order of the dump, whatever the number of processes.
    The length is then the number of texts. *)
Theorem texts_exact : forall ns root ps w, dump ns root ps -> 1 <= w_processes w -> (1 <= w_min_tokens w)%Z -> w_tok w [] (w_lo w) (w_hi w) (w_low w) = [] ->
  exists qs, picks (is_text w) ps qs /\ get_texts wordc decimal n2cp w root = (Ok (map (text_of w) qs), with_length w (length qs)).
Proof.
  intros ns root ps w D PR MT TE. set (keep := fun p => wantedb (w_namespaces w) (w_articles w) p && negb (Z.of_nat (length (tokens_of w p)) <? w_min_tokens w)%Z && negb (no_articleb (p_title p))).
  exists (filter keep ps). split.
  - apply picks_filter. intros p. unfold keep, is_text. rewrite !Bool.andb_true_iff, wantedb_iff, !Bool.negb_true_iff, Z.ltb_ge. rewrite <- (no_article_iff (p_title p)). rewrite Bool.not_true_iff_false. tauto.
  - unfold get_texts. destruct (Nat.eqb_spec (w_processes w) 0) as [E|_]; [lia|]. rewrite (extract_entries ns root ps _ _ D). cbn [rbind]. rewrite <- concat_map, serial_pages by lia. rewrite !map_map.
    assert (EQ : map (fun x => process_article wordc decimal n2cp (let '(title, text, pageid) := entry (w_namespaces w) (w_articles w) x in (text, title, pageid)) (w_tok w) (w_lo w) (w_hi w) (w_low w)) ps = map (prepared w) ps) by reflexivity.
    rewrite EQ. clear EQ.
    assert (STEP : forall l got, rfold (collect w) (map (prepared w) l) got = Ok (got ++ map (text_of w) (filter keep l))).
    { clear D. induction l as [|p l IH]; intros got; cbn [map rfold filter]; [rewrite app_nil_r; reflexivity|]. unfold collect at 1. unfold prepared at 1. unfold keep at 1. unfold tokens_of at 1.
      destruct (wantedb (w_namespaces w) (w_articles w) p) eqn:W; cbn [andb].
      - destruct (Z.of_nat (length (w_tok w (clean (page_text p)) (w_lo w) (w_hi w) (w_low w))) <? w_min_tokens w)%Z; cbn [andb negb rbind]; [apply IH|]. cbn [ignored rbind]. fold (no_articleb (p_title p)). destruct (no_articleb (p_title p)); cbn [negb rbind]; rewrite IH; [reflexivity|].
        cbn [map]. rewrite <- app_assoc. reflexivity.
      - rewrite clean_empty, TE. cbn [length]. change (Z.of_nat 0) with 0%Z. destruct (Z.ltb_spec 0 (w_min_tokens w)) as [_|K]; [|lia]. cbn [rbind]. apply IH. }
    rewrite STEP. cbn [app]. rewrite map_length. reflexivity.
Qed.
(** The texts do not depend on the number of processes. *)
Theorem processes_irrelevant : forall ns root ps w n, dump ns root ps -> 1 <= w_processes w -> 1 <= n -> (1 <= w_min_tokens w)%Z -> w_tok w [] (w_lo w) (w_hi w) (w_low w) = [] ->
  let w' := mkW (w_namespaces w) (w_articles w) (w_metadata w) n (w_tok w) (w_min_tokens w) (w_lo w) (w_hi w) (w_low w) (w_length w) in
  fst (get_texts wordc decimal n2cp w' root) = fst (get_texts wordc decimal n2cp w root) /\ (forall l, fst (get_texts wordc decimal n2cp w root) = Ok l -> wlen (snd (get_texts wordc decimal n2cp w root)) = Ok (length l)).
Proof.
  intros ns root ps w n D PR PN MT TE w'. destruct (texts_exact ns root ps w D PR MT TE) as (qs & P1 & E1). destruct (texts_exact ns root ps w' D PN MT TE) as (qs' & P2 & E2).
  assert (Q : qs' = qs) by (apply (picks_unique (is_text w) ps); assumption). subst qs'. rewrite E1, E2. split; [reflexivity|]. cbn [fst snd]. intros l L. injection L as <-. rewrite map_length. reflexivity.
Qed.
(** The default tokenizer fulfils the condition if no character comes from lowering nothing. *)
Theorem default_tokenizer : forall lo hi low, lower [] = [] -> tokenize wordc decimal lower [] lo hi low = [].
Proof. intros lo hi low L. unfold tokenize. rewrite L. destruct low; reflexivity. Qed.

(** ** Sections *)
(** Every text is cut at headings without loss, no heading is left in a section, and there are as many sections as headings. *)
Theorem sections_lossless : forall t, exists lead hs bodies, cut t lead hs bodies /\ section_texts t = lead :: bodies /\ section_headings t = str "Introduction" :: map (strip is_space) hs.
Proof.
  intros t. destruct (sections_any t [] []) as (lead & bodies & hs & S1 & S2 & S3 & S4 & S5 & S6). exists lead, hs, bodies. split; [repeat split; assumption|]. split; [exact S1|].
  unfold section_headings, finditer. rewrite S2. reflexivity.
Qed.
(** If the sections contain no lines that look like headings and the headings are on a line of their own, exactly these sections come back. *)
Theorem sections_exact : forall lead hbs, no_sections lead -> Forall good_section hbs ->
  section_texts (lead ++ concat (map mark hbs)) = lead :: map snd hbs /\ section_headings (lead ++ concat (map mark hbs)) = str "Introduction" :: map (fun hb => strip is_space (fst hb)) hbs.
Proof.
  intros lead hbs L F. destruct (sections_read hbs F lead [] [] L) as (S1 & S2). unfold more_of in S1, S2. split; [exact S1|]. unfold section_headings, finditer. rewrite S2. cbn [map]. rewrite map_map. reflexivity.
Qed.

Definition article_of (include : bool) (p : page) (a : article) : Prop :=
  let '(title, sections, links) := a in
  title = Some (p_title p) /\
  (forall t, p_ns p = Some (str "0") -> p_text p = Some t -> segmented clean t sections /\ links = (if include then Some (find_interlinks wordc decimal n2cp t) else None)) /\
  (p_ns p <> Some (str "0") \/ p_text p = None -> sections = [] /\ links = (if include then Some [] else None)).
Definition shown (min : nat) (a : article) : Prop :=
  let '(title, sections, _) := a in
  (exists t, title = Some t /\ ~ no_article t) /\
  (exists h b rest, sections = (h, b) :: rest /\ ~ exists t, lower (lstrip is_space b) = str "#redirect" ++ t) /\
  min <= list_sum (map (fun s => length (strip is_space (snd s))) sections).
Definition seg_page (include : bool) (p : page) : article :=
  let text := match p_ns p with Some n => if memb n [str "0"] then p_text p else None | None => None end in
  match text with
  | Some t => (Some (p_title p), combine (section_headings t) (map clean (section_texts t)), if include then Some (find_interlinks wordc decimal n2cp t) else None)
  | None => (Some (p_title p), [], if include then Some [] else None) end.
Lemma segment_page : forall ns include p, (exists v, ns = str "http://www.mediawiki.org/xml/export-" ++ v) -> ~ In 125%N ns -> ~ In 10%N ns -> page_of ns p ->
  segment wordc decimal n2cp include (p_elem p) = Ok (seg_page include p).
Proof.
  intros ns include p V C NL (T0 & (k1 & T1 & E1) & (k2 & T2 & E2) & _ & (r & k4 & T4 & T5 & E4) & _). unfold segment. rewrite (namespace_read ns "page" _ V C NL T0). cbn [rbind].
  fold (q ns "title") (q ns "revision") (q ns "text") (q ns "ns"). rewrite (find1 _ _ _ _ T1), (find2 _ _ _ _ _ _ T4 T5), (find1 _ _ _ _ T2), E1, E2, E4. cbn [rbind]. unfold seg_page.
  destruct (match p_ns p with Some n => if memb n [str "0"] then p_text p else None | None => None end) as [t|]; [|reflexivity].
  destruct (sections_lossless t) as (lead & hs & bodies & (L & _) & S1 & S2). assert (LE : (length (section_texts t) =? length (section_headings t)) = true) by (rewrite S1, S2; cbn [length]; rewrite map_length, L; apply Nat.eqb_refl).
  rewrite LE. reflexivity.
Qed.
Lemma seg_article : forall include p, article_of include p (seg_page include p).
Proof.
  intros include p. unfold article_of, seg_page. assert (M : forall n, memb n [str "0"] = true <-> n = str "0") by (intros n; rewrite memb_true; cbn [In]; split; [intros [->|[]]; reflexivity | intros ->; left; reflexivity]).
  destruct (p_ns p) as [n|] eqn:NS; [destruct (memb n [str "0"]) eqn:MB|]; [destruct (p_text p) as [t|] eqn:T| |].
  - apply M in MB. subst n. split; [reflexivity|]. split; [|intros [K|K]; congruence]. intros t' _ E. injection E as <-. split; [|reflexivity]. destruct (sections_lossless t) as (lead & hs & bodies & CU & S1 & S2). exists lead, hs, bodies. rewrite S1, S2. split; [exact CU | reflexivity].
  - split; [reflexivity|]. split; [intros t' _ E; discriminate E | intros _; split; reflexivity].
  - split; [reflexivity|]. split; [|intros _; split; reflexivity]. intros t' E. injection E as ->. assert (K : memb (str "0") [str "0"] = true) by (apply M; reflexivity). congruence.
  - split; [reflexivity|]. split; [intros t' E; discriminate E | intros _; split; reflexivity].
Qed.
Definition shownb (min : nat) (a : article) : bool :=
  let '(title, sections, _) := a in match title with Some t => negb (no_articleb t) && negb (redirect lower sections) && negb (characters sections <? min) | None => false end.
Lemma characters_sum : forall sections, characters sections = list_sum (map (fun s => length (strip is_space (snd s))) sections).
Proof. intros sections. reflexivity. Qed.
Lemma shownb_iff : forall min a, shownb min a = true <-> shown min a.
Proof.
  intros min [[title sections] links]. unfold shownb, shown. destruct title as [t|]; [|split; [discriminate | intros ((t & E & _) & _); discriminate E]].
  rewrite !Bool.andb_true_iff, !Bool.negb_true_iff, Nat.ltb_ge, characters_sum. rewrite <- (Bool.not_true_iff_false (no_articleb t)), no_article_iff.
  assert (R1 : redirect lower sections = false <-> exists h b rest, sections = (h, b) :: rest /\ ~ exists t, lower (lstrip is_space b) = str "#redirect" ++ t).
  { destruct sections as [|[h b] rest]; cbn [redirect]; [split; [discriminate | intros (h & b & rest & E & _); discriminate E]|]. rewrite <- Bool.not_true_iff_false, begins_iff. split.
    - intros H. exists h, b, rest. split; [reflexivity | exact H].
    - intros (h' & b' & rest' & E & H). injection E as <- <- <-. exact H. }
  rewrite R1. split.
  - intros ((A & B) & C). split; [exists t; split; [reflexivity | exact A]|]. split; assumption.
  - intros ((t' & E & A) & B & C). injection E as <-. repeat split; assumption.
Qed.
(** The articles with their sections: exactly those that are no redirects, no other pages, and long enough, in order. *)
Theorem sections_corpus : forall ns root ps c, dump ns root ps -> 1 <= s_processes c -> exists articles l, Forall2 (article_of (s_include c)) ps articles /\ picks (shown (s_min c)) articles l /\
  get_texts_with_sections wordc decimal lower n2cp c root = (Ok l, mkS (s_namespaces c) (s_min c) (s_processes c) (s_include c) (Some (length l))).
Proof.
  intros ns root ps c D PR. set (as' := map (seg_page (s_include c)) ps). exists as', (filter (shownb (s_min c)) as'). split; [|split].
  - unfold as'. clear D. induction ps as [|p ps IH]; cbn [map]; constructor; [apply seg_article | exact IH].
  - apply picks_filter. intros a. apply shownb_iff.
  - unfold get_texts_with_sections. destruct (Nat.eqb_spec (s_processes c) 0) as [E|_]; [lia|]. pose proof D as (_ & _ & _ & _ & V & C & NL). destruct (dump_pages ns root ps D) as (E & F). rewrite E. cbn [rbind]. rewrite serial_pages by lia.
    rewrite (rmapM_pages ns _ (seg_page (s_include c)) ps F) by (intros p P; apply (segment_page ns); assumption). cbn [rbind]. fold as'.
    assert (ST : forall l got, Forall (fun a => fst (fst a) <> None) l -> rfold (collect_sections lower c) l got = Ok (got ++ filter (shownb (s_min c)) l)).
    { induction l as [|a l IH]; intros got FA; cbn [rfold filter]; [rewrite app_nil_r; reflexivity|]. inversion FA as [|? ? A FL]; subst. destruct a as [[[t|] sections] links]; cbn [fst] in A; [|congruence]. unfold collect_sections at 1, shownb at 1. cbn [ignored rbind]. fold (no_articleb t).
      destruct (no_articleb t); cbn [negb andb rbind]; [apply IH, FL|]. destruct (redirect lower sections); cbn [negb andb rbind]; [apply IH, FL|]. destruct (characters sections <? s_min c); cbn [negb andb rbind]; [apply IH, FL|]. rewrite IH by exact FL. rewrite <- app_assoc. reflexivity. }
    rewrite ST by (apply Forall_forall; intros a I; apply in_map_iff in I as (p & <- & _); unfold seg_page; destruct (match p_ns p with Some n => if memb n [str "0"] then p_text p else None | None => None end); discriminate). reflexivity.
Qed.
End Corpus.
Print Assumptions texts_exact.
Print Assumptions processes_irrelevant.
Print Assumptions default_tokenizer.
Print Assumptions sections_lossless.
Print Assumptions sections_exact.
Print Assumptions sections_corpus.

(** ** A dump *)
Definition NS : pystr := str "http://www.mediawiki.org/xml/export-0.10/".
Definition el (n : String.string) (x : option pystr) (ks : list elem) : elem := Elem ([123%N] ++ NS ++ [125%N] ++ str n) x ks.
Definition a_page (title namespace number : String.string) (text : option pystr) : page :=
  mkPage (el "page" None [el "title" (Some (str title)) []; el "ns" (Some (str namespace)) []; el "id" (Some (str number)) [];
                          el "revision" None [el "id" (Some (str "9")) []; el "text" text []]]) (str title) (Some (str namespace)) (Some (str number)) text.
Definition body1 : pystr := str "Graphs have [[node]]s." ++ [nl] ++ str "==History ==" ++ [nl] ++ str "Euler drew bridges.".
Definition pages1 : list page :=
  [a_page "Graph" "0" "1" (Some body1); a_page "Talk:Graph" "1" "2" (Some (str "good article it is")); a_page "Net" "0" "3" (Some (str "#REDIRECT [[Graph]]")); a_page "Tree" "0" "4" None].
Definition root1 : elem := el "mediawiki" None (el "siteinfo" None [el "sitename" (Some (str "Wiki")) []] :: map p_elem pages1).

Fixpoint no_pageb (t : pystr) (e : elem) : bool := match e with Elem t' _ ks => negb (eqb t' t) && forallb (no_pageb t) ks end.
Lemma no_pageb_ok : forall ns e, no_pageb (qualified ns (str "page")) e = true -> forall x, within x e -> ~ is_tag ns "page" x.
Proof.
  intros ns e H x W. induction W as [|e k I W IH].
  - destruct x as [t y ks]. cbn [no_pageb] in H. apply Bool.andb_true_iff in H as (H & _). intros T. unfold is_tag in T. cbn [e_tag] in T. unfold eqb in H. destruct (eq_dec t (qualified ns (str "page"))) as [_|K]; [discriminate H | exact (K T)].
  - apply IH. destruct e as [t y ks]. cbn [no_pageb e_kids] in *. apply Bool.andb_true_iff in H as (_ & H). rewrite forallb_forall in H. apply H, I.
Qed.
Lemma a_page_ok : forall t n i x, page_of NS (a_page t n i x).
Proof.
  intros t n i x. unfold page_of, a_page. cbn [p_elem p_title p_ns p_id p_text]. assert (FC : forall (names : list elem) nm k rest e, e_kids e = names ++ k :: rest -> is_tag NS nm k -> Forall (fun y => ~ is_tag NS nm y) names -> first_child NS nm e k) by (intros names nm k rest e E T F; exists names, rest; repeat split; assumption).
  split; [reflexivity|]. split; [|split; [|split; [|split]]].
  - eexists. split; [eapply (FC []); [reflexivity | reflexivity | constructor] | reflexivity].
  - eexists. split; [eapply (FC [_]); [reflexivity | reflexivity | repeat constructor; intros T; vm_compute in T; discriminate T] | reflexivity].
  - eexists. split; [eapply (FC [_; _]); [reflexivity | reflexivity | repeat constructor; intros T; vm_compute in T; discriminate T] | reflexivity].
  - eexists _, _. split; [eapply (FC [_; _; _]); [reflexivity | reflexivity | repeat constructor; intros T; vm_compute in T; discriminate T]|]. split; [eapply (FC [_]); [reflexivity | reflexivity | repeat constructor; intros T; vm_compute in T; discriminate T] | reflexivity].
  - intros k y I. apply no_pageb_ok. cbn [e_kids el] in I. destruct I as [<-|[<-|[<-|[<-|[]]]]]; vm_compute; reflexivity.
Qed.
Example root1_dump : dump NS root1 pages1.
Proof.
  split; [intros T; vm_compute in T; discriminate T|]. split; [discriminate|]. split; [|split; [|split; [|split]]].
  - unfold root1. cbn [e_kids el]. apply l_other; [apply no_pageb_ok; vm_compute; reflexivity|]. unfold pages1. cbn [map]. repeat (apply l_page; [apply a_page_ok|]). constructor.
  - exists (el "sitename" (Some (str "Wiki")) []), "sitename"%string. split; [|reflexivity]. eapply leaf_kid; [reflexivity|]. eapply leaf_kid; [reflexivity|]. apply leaf_self. reflexivity.
  - exists (str "0.10/"). reflexivity.
  - vm_compute. intros I. repeat (destruct I as [I|I]; [discriminate I|]). exact I.
  - vm_compute. intros I. repeat (destruct I as [I|I]; [discriminate I|]). exact I.
Qed.
Definition tok1 : tokenizer := tokenize ascii_word is_digit ascii_lower.
Definition corpus1 (nss : list pystr) (min : Z) : wcorpus := mkW nss None true 2 tok1 min 2 15 true None.
Notation read := (get_texts ascii_word is_digit (fun _ => None)).
Example texts_example : fst (read (corpus1 [str "0"] 2) root1) =
  Ok [(map str ["graphs"; "have"; "nodes"; "history"; "euler"; "drew"; "bridges"]%string, Some (Some (str "1"), Some (str "Graph"))); (map str ["redirect"; "graph"]%string, Some (Some (str "3"), Some (str "Net")))].
Proof. vm_compute. reflexivity. Qed.
Example sections_example : fst (get_texts_with_sections ascii_word is_digit ascii_lower (fun _ => None) (mkS [] 5 1 true None) root1) =
  Ok [(Some (str "Graph"), [(str "Introduction", str "Graphs have nodes."); (str "History", str "Euler drew bridges.")], Some [(str "node", str "node")])].
Proof. vm_compute. reflexivity. Qed.
Example sections_instance : no_sections (str "Graphs have [[node]]s.") /\ Forall good_section [(str "History ", str "Euler drew bridges.")] /\ section_headings body1 = [str "Introduction"; str "History"].
Proof.
  assert (NB : forall t, forallb (fun c => negb (c =? 61)%N) t = true -> no_sections (10%N :: t)).
  { intros t H a b E. exfalso. rewrite forallb_forall in H. assert (I : In 61%N (10%N :: t)) by (rewrite E; apply in_or_app; right; right; left; reflexivity). destruct I as [I|I]; [discriminate I|]. specialize (H _ I). discriminate H. }
  split; [apply (no_sections_tail 10%N); apply NB; reflexivity|]. split; [|vm_compute; reflexivity]. constructor; [|constructor]. split; [|split; [|apply NB; reflexivity]].
  - exists 72%N, (str "istory"), 32%N. repeat split; try discriminate. vm_compute. intros I. repeat (destruct I as [I|I]; [discriminate I|]). exact I.
  - vm_compute. intros I. repeat (destruct I as [I|I]; [discriminate I|]). exact I.
Qed.

(** With a minimum of 0 tokens the pages of other namespaces come out as empty documents. *)
Theorem excluded_pages_refuted : exists p, In p (match fst (read (mkW [str "0"] None true 1 tok1 0 2 15 true None) (el "mediawiki" None (el "siteinfo" None [] :: [p_elem (a_page "Graph talk" "1" "2" (Some (str "good article it is")))]))) with Ok l => l | Err _ => [] end) /\
  p = ([], Some (Some (str "2"), Some (str "Graph talk"))).
Proof. eexists. split; [vm_compute; left; reflexivity | reflexivity]. Qed.
(** With a dictionary given, the length does not exist before the first pass. *)
Theorem length_before_pass_refuted : exists d w, new_corpus ascii_word is_digit (fun _ => None) [str "0"] None 1 tok1 1 2 15 true (Some d_empty) root1 = Ok (d, w) /\ wlen w = Err AttributeErr.
Proof. eexists _, _. split; reflexivity. Qed.
(** No namespaces asked for means all of them. *)
Theorem no_namespaces_refuted : exists l, fst (read (corpus1 [] 3) (el "mediawiki" None (el "siteinfo" None [] :: [p_elem (a_page "Cat talk" "1" "2" (Some (str "good article it is")))]))) = Ok l /\ length l = 1.
Proof. eexists. split; [vm_compute; reflexivity | reflexivity]. Qed.
(** Talk pages of users are taken for articles; an article whose title begins with "Book:" is left out. *)
Theorem prefixes_refuted : exists witness, witness = str "User talk:Bob" /\ (ignored (Some witness) = Ok false /\ ignored (Some (str "Category talk:Graphs")) = Ok false /\ ignored (Some (str "Book: a history")) = Ok true).
Proof. exists (str "User talk:Bob"). split; [reflexivity|]. vm_compute. repeat split; reflexivity. Qed.
(** A heading right after another one, of one character only, or followed by a space is not recognised. *)
Theorem headings_missed_refuted : exists witness, witness = str "a" ++ [nl] ++ str "==One==" ++ [nl] ++ str "==Two==" ++ [nl] ++ str "b" /\ (section_headings witness = [str "Introduction"; str "One"] /\
  section_headings (str "a" ++ [nl] ++ str "==A==" ++ [nl] ++ str "b") = [str "Introduction"] /\
  section_headings (str "a" ++ [nl] ++ str "==One== " ++ [nl] ++ str "b") = [str "Introduction"] /\
  section_headings (str "==One==" ++ [nl] ++ str "b") = [str "Introduction"]).
Proof. exists (str "a" ++ [nl] ++ str "==One==" ++ [nl] ++ str "==Two==" ++ [nl] ++ str "b"). split; [reflexivity|]. vm_compute. repeat split; reflexivity. Qed.
(** The corpus of sections reads namespace 0 whatever it was asked for. *)
Theorem sections_namespace_refuted : let root := el "mediawiki" None (el "siteinfo" None [] :: [p_elem (a_page "Cat" "0" "1" (Some (str "a cat that is"))); p_elem (a_page "Handbook of cats" "4" "2" (Some (str "good article it is")))]) in
  exists l, fst (get_texts_with_sections ascii_word is_digit ascii_lower (fun _ => None) (mkS [str "4"] 1 1 false None) root) = Ok l /\ map (fun a => fst (fst a)) l = [Some (str "Cat")].
Proof. eexists. split; [vm_compute; reflexivity | reflexivity]. Qed.
Print Assumptions root1_dump.
