(** Ordinary markup: links, comments, footnotes and tags. *)
From Coq Require Import ZifyBool ZifyNat ZifyN.
From Verif Require Import Base Str Tfidf_Spec Text_Model Text_Proofs Text_Properties Regex_Model Wiki_Spec Regex_Proofs Wiki_Model Wiki_Proofs Wiki_Proofs2 Wiki_Proofs3 Wiki_Proofs4.
Local Open Scope nat_scope.

Definition f1 (s : seg) : pystr := match s with Cmt _ => [] | _ => source s end.
Definition f2 (s : seg) : pystr := match s with Cmt _ | Ref _ => [] | _ => source s end.
Definition passes (r : re) (rep : st -> pystr) (f g : seg -> pystr) : Prop :=
  forall sg, good_seg sg -> forall bk rest, sub_from r rep 0 bk (f sg ++ rest) = g sg ++ sub_from r rep 0 (rev (f sg) ++ bk) rest.
Lemma passes_all : forall r rep f g, passes r rep f g -> forall segs, Forall good_seg segs -> sub r rep (concat (map f segs)) = concat (map g segs).
Proof.
  intros r rep f g H segs F. unfold sub. generalize (@nil N) as bk. induction F as [|s segs G F IH]; intros bk; cbn [map concat]; [reflexivity|]. rewrite H by exact G. f_equal. apply IH.
Qed.
Lemma passes_inert : forall r rep f, (forall sg, good_seg sg -> inert r (f sg)) -> passes r rep f f.
Proof. intros r rep f H sg G bk rest. apply (H sg G). Qed.
Lemma inert_cons : forall r c t, (forall bk rest, m1 r bk (c :: t ++ rest) = None) -> inert r t -> inert r (c :: t).
Proof. intros r c t H I rep bk rest. cbn [app rev]. rewrite sub_none by apply H. rewrite I, <- app_assoc. reflexivity. Qed.
Lemma lit_none : forall w r bk s, begins w s = false -> m1 (Cat (lit w) r) bk s = None.
Proof. intros w r bk s B. unfold m1. rewrite m_cat. apply lit_fail, B. Qed.

(** ** Characters *)
Lemma ordinary_not : forall c d, ordinary c -> In d (str "<>[]|{!&") -> c <> d.
Proof. intros c d O I ->. exact (O I). Qed.
Lemma ordinary_notin : forall t d, Forall ordinary t -> In d (str "<>[]|{!&") -> ~ In d t.
Proof. intros t d F I J. rewrite Forall_forall in F. exact (F d J I). Qed.
Lemma name_ordinary : forall a, name a -> Forall ordinary a.
Proof. intros a (_ & F). eapply Forall_impl; [|exact F]. cbn beta. tauto. Qed.
Lemma name_no_colon : forall a, name a -> ~ In 58%N a.
Proof. intros a (_ & F) I. rewrite Forall_forall in F. destruct (F _ I) as (_ & K). congruence. Qed.
Ltac inlist := vm_compute; tauto.
Lemma prefix_before : forall (w c rest : pystr) d, ~ In d w -> forall t, w ++ t = c ++ d :: rest -> exists z, c = w ++ z.
Proof. intros w c rest d NI t E. destruct (app_cons_split _ _ _ _ _ E) as [(z & -> & _)|(z & -> & _)]; [exfalso; apply NI; apply in_or_app; right; left; reflexivity | exists z; reflexivity]. Qed.

(** ** Comments *)
Lemma p0_hit : forall c bk rest, Forall ordinary c -> exists x, m1 RE_P0 bk (source (Cmt c) ++ rest) = Some x /\ ahead x = rest.
Proof.
  intros c bk rest F. eexists. split.
  - unfold m1, RE_P0, source. cbn [seq]. rewrite m_cat, <- !app_assoc, lit_ok, m_cat. apply (lazy_first _ c (str "-->" ++ rest)).
    + apply Forall_forall. reflexivity.
    + intros u1 u2 -> NE. apply lit_fail. destruct (begins (str "-->") (u2 ++ str "-->" ++ rest)) eqn:B; [exfalso|reflexivity]. apply begins_iff in B as (t & B).
      apply Forall_app in F as (_ & F). change (str "-->") with [45; 45; 62]%N in B. destruct u2 as [|a [|b [|d u]]]; cbn [app] in B; try congruence.
      injection B as _ _ -> _. inversion F as [|? ? _ F1]. inversion F1 as [|? ? _ F2]. inversion F2 as [|? ? O _]. apply O. inlist.
    + rewrite lit_ok. reflexivity.
  - reflexivity.
Qed.
Lemma hit_gone : forall r t bk rest, (exists x, m1 r bk (t ++ rest) = Some x /\ ahead x = rest) -> t <> [] -> sub_from r gone 0 bk (t ++ rest) = sub_from r gone 0 (rev t ++ bk) rest.
Proof. intros r t bk rest (x & M & A) NE. rewrite <- A in M |- *. rewrite sub_hit by assumption. reflexivity. Qed.
Lemma no_lt_inert : forall r t, headed r 60 -> ~ In 60%N t -> inert r t.
Proof. intros r t H NI. apply (headed_inert r 60); assumption. Qed.
Lemma link_no_lt : forall sg, good_seg sg -> match sg with Lnk _ _ | Bare _ | Txt _ => ~ In 60%N (source sg) | _ => True end.
Proof.
  intros [t|a b|a|c|c|c] G; cbn [good_seg source] in *; try exact Logic.I.
  - apply (ordinary_notin _ _ G). inlist.
  - destruct G as (A & B & _). intros I. apply in_app_or in I as [I|I]; [vm_compute in I; intuition discriminate|]. apply in_app_or in I as [I|I]; [revert I; apply ordinary_notin; [apply name_ordinary, A | inlist]|].
    apply in_app_or in I as [I|I]; [vm_compute in I; intuition discriminate|]. apply in_app_or in I as [I|I]; [revert I; apply ordinary_notin; [apply name_ordinary, B | inlist] | vm_compute in I; intuition discriminate].
  - destruct G as (A & _). intros I. apply in_app_or in I as [I|I]; [vm_compute in I; intuition discriminate|]. apply in_app_or in I as [I|I]; [revert I; apply ordinary_notin; [apply name_ordinary, A | inlist] | vm_compute in I; intuition discriminate].
Qed.
Lemma tag_rest : forall c, Forall ordinary c -> ~ In 60%N (c ++ str ">").
Proof. intros c F I. apply in_app_or in I as [I|I]; [revert I; apply ordinary_notin; [exact F | inlist] | vm_compute in I; intuition discriminate]. Qed.
Lemma passes_p0 : passes RE_P0 gone source f1.
Proof.
  intros sg G bk rest. destruct sg as [t|a b|a|c|c|c]; cbn [f1].
  - apply no_lt_inert; [exact headed_p0 | exact (link_no_lt (Txt t) G)].
  - apply no_lt_inert; [exact headed_p0 | exact (link_no_lt (Lnk a b) G)].
  - apply no_lt_inert; [exact headed_p0 | exact (link_no_lt (Bare a) G)].
  - cbn [app]. apply hit_gone; [apply p0_hit, G | discriminate].
  - revert bk rest. change (inert RE_P0 (60%N :: (str "ref>" ++ c) ++ 60%N :: str "/ref>")) || (assert (E : source (Ref c) = 60%N :: (str "ref>" ++ c) ++ 60%N :: str "/ref>") by (cbn [source]; rewrite <- app_assoc; reflexivity); rewrite E; clear E).
    intros bk rest. apply (inert_cons RE_P0 60%N).
    + intros bk' rest'. apply (lit_none (str "<!--")). reflexivity.
    + apply inert_app.
      * apply no_lt_inert; [exact headed_p0|]. intros I. apply in_app_or in I as [I|I]; [vm_compute in I; intuition discriminate|]. revert I. apply ordinary_notin; [exact G | inlist].
      * apply inert_cons; [intros bk' rest'; apply (lit_none (str "<!--")); reflexivity|]. apply no_lt_inert; [exact headed_p0|]. vm_compute. intuition discriminate.
  - destruct G as (F & NC & _). apply (inert_cons RE_P0 60%N); [|apply no_lt_inert; [exact headed_p0 | apply tag_rest, F]].
    intros bk' rest'. apply (lit_none (str "<!--")). destruct (begins (str "<!--") _) eqn:B; [exfalso|reflexivity]. apply begins_iff in B as (t & B).
    change (str "<!--" ++ t) with (60%N :: str "!--" ++ t) in B. injection B as B. apply NC. symmetry in B. rewrite <- app_assoc in B. refine (prefix_before (str "!--") c rest' 62%N _ t B). vm_compute. intuition discriminate.
Qed.

(** ** Elements *)
Lemma p1_hit : forall c bk rest, Forall ordinary c -> exists x, m1 RE_P1 bk (source (Ref c) ++ rest) = Some x /\ ahead x = rest.
Proof.
  intros c bk rest F. unfold m1, RE_P1, element. cbn [seq]. rewrite m_cat.
  replace (source (Ref c) ++ rest) with ((str "<" ++ str "ref") ++ 62%N :: c ++ str "</ref>" ++ rest) by (cbn [source]; rewrite <- !app_assoc; reflexivity). rewrite lit_ok, m_cat, m_grp, m_cat, chr_ok by reflexivity.
  eexists. split.
  - apply (lazy_first _ c (str "</ref>" ++ rest)).
    + apply Forall_forall. reflexivity.
    + intros u1 u2 -> NE. apply Forall_app in F as (_ & F). destruct u2 as [|a u2]; [congruence|]. inversion F as [|? ? O F2]; subst. unfold grab. cbn [back ahead caps]. rewrite m_grp, m_alt.
      rewrite lit_fail by (change (str "</" ++ str "ref" ++ str ">") with (60%N :: str "/ref>"); cbn [app begins]; destruct (N.eqb_spec 60 a) as [<-|]; [exfalso; apply O; inlist | reflexivity]).
      apply lit_fail. change (str "/>") with [47; 62]%N. cbn [app begins]. destruct (N.eqb 47 a); [cbn [andb] | reflexivity]. destruct u2 as [|b u2]; [reflexivity|]. cbn [app].
      destruct (N.eqb_spec 62 b) as [<-|]; [exfalso; inversion F2 as [|? ? O2 _]; apply O2; inlist | reflexivity].
    + unfold grab at 1. cbn [back ahead caps]. rewrite m_grp, m_alt, lit_ok. reflexivity.
  - reflexivity.
Qed.
Lemma element_none : forall n bk s, (forall d, d = 62%N \/ d = 32%N -> begins (str "<" ++ str n ++ [d]) s = false) -> m1 (element n) bk s = None.
Proof.
  intros n bk s H. apply m1_none. intros w t -> L. unfold element in L. cbn [seq] in L. lcat L u1 u2 A. apply lang_lit in A as ->. lcat L u3 u4 B. apply lang_grp in B. lcat B u5 u6 C. apply lang_chr in C as (d & -> & D).
  assert (DD : d = 62%N \/ d = 32%N) by (apply Bool.orb_true_iff in D as [D|D]; apply N.eqb_eq in D; auto). specialize (H d DD).
  match type of H with ?b = false => assert (B' : b = true); [|congruence] end. apply begins_iff. exists ((u6 ++ u4) ++ t). rewrite <- !app_assoc. reflexivity.
Qed.
Lemma element_tag : forall n, ~ In 62%N (str n) -> In (str n) (map str ["ref"; "nowiki"; "math"]%string) -> forall c, good_seg (Tag c) -> inert (element n) (source (Tag c)).
Proof.
  intros n NI I c (F & _ & NE). apply (inert_cons (element n) 60%N); [|apply no_lt_inert; [apply headed_element | apply tag_rest, F]].
  intros bk rest. apply element_none. intros d D. destruct (begins (str "<" ++ str n ++ [d]) _) eqn:B; [exfalso|reflexivity]. apply begins_iff in B as (t & B).
  change ((str "<" ++ str n ++ [d]) ++ t) with (60%N :: (str n ++ [d]) ++ t) in B. injection B as B. rewrite <- app_assoc in B. cbn [app] in B. apply (NE _ I). unfold is_element. destruct D as [->| ->].
  - left. symmetry in B. rewrite <- app_assoc in B. cbn [app] in B. destruct (app_cons_split (str n) (62%N :: t) c 62%N rest B) as [(z & Z & _)|(z & -> & Z)].
    + exfalso. apply NI. rewrite Z. apply in_or_app. right. left. reflexivity.
    + destruct z as [|e z]; [apply app_nil_r|]. injection Z as <- _. exfalso. revert F. intros F. apply Forall_app in F as (_ & F). inversion F as [|? ? O _]. apply O. inlist.
  - right. symmetry in B. assert (NI' : ~ In 62%N (str n ++ str " ")) by (intros J; apply in_app_or in J as [J|J]; [exact (NI J) | vm_compute in J; intuition discriminate]).
    destruct (prefix_before (str n ++ str " ") c rest 62%N NI' t) as (z & ->); [rewrite <- app_assoc in *; exact B | exists z; rewrite <- app_assoc; reflexivity].
Qed.
Lemma passes_p1 : passes RE_P1 gone f1 f2.
Proof.
  intros sg G bk rest. destruct sg as [t|a b|a|c|c|c]; cbn [f1 f2].
  - apply no_lt_inert; [apply headed_element | exact (link_no_lt (Txt t) G)].
  - apply no_lt_inert; [apply headed_element | exact (link_no_lt (Lnk a b) G)].
  - apply no_lt_inert; [apply headed_element | exact (link_no_lt (Bare a) G)].
  - reflexivity.
  - cbn [app]. apply hit_gone; [apply p1_hit, G | discriminate].
  - apply (element_tag "ref"); [vm_compute; intuition discriminate | inlist | exact G].
Qed.
Lemma passes_element : forall n, n = "nowiki"%string \/ n = "math"%string -> passes (element n) gone f2 f2.
Proof.
  intros n N0. apply passes_inert. intros sg G. destruct sg as [t|a b|a|c|c|c]; cbn [f2]; try apply inert_nil.
  - apply no_lt_inert; [apply headed_element | exact (link_no_lt (Txt t) G)].
  - apply no_lt_inert; [apply headed_element | exact (link_no_lt (Lnk a b) G)].
  - apply no_lt_inert; [apply headed_element | exact (link_no_lt (Bare a) G)].
  - destruct N0 as [->| ->]; (apply element_tag; [vm_compute; intuition discriminate | inlist | exact G]).
Qed.
Lemma p11_hit : forall c bk rest, Forall ordinary c -> exists x, m1 RE_P11 bk (source (Tag c) ++ rest) = Some x /\ ahead x = rest.
Proof.
  intros c bk rest F. unfold m1, RE_P11. cbn [seq source]. rewrite m_cat. replace ((str "<" ++ c ++ str ">") ++ rest) with (60%N :: c ++ 62%N :: rest) by (rewrite <- !app_assoc; reflexivity).
  rewrite ch_ok, m_cat, m_grp. eexists. split.
  - apply (lazy_first _ c (62%N :: rest)).
    + apply Forall_forall. reflexivity.
    + intros u1 u2 -> NE. apply Forall_app in F as (_ & F). destruct u2 as [|a u2]; [congruence|]. inversion F as [|? ? O F2]; subst. unfold grab. cbn [back ahead caps]. apply ch_fail. cbn [app begins].
      destruct (N.eqb_spec 62 a) as [<-|]; [exfalso; apply O; inlist | reflexivity].
    + unfold grab. cbn [back ahead caps]. rewrite ch_ok. reflexivity.
  - reflexivity.
Qed.
Lemma passes_p11 : passes RE_P11 gone f2 linked.
Proof.
  intros sg G bk rest. destruct sg as [t|a b|a|c|c|c]; cbn [f2 linked]; try reflexivity.
  - apply no_lt_inert; [exact headed_p11 | exact (link_no_lt (Txt t) G)].
  - apply no_lt_inert; [exact headed_p11 | exact (link_no_lt (Lnk a b) G)].
  - apply no_lt_inert; [exact headed_p11 | exact (link_no_lt (Bare a) G)].
  - cbn [app]. apply hit_gone; [apply p11_hit, G | discriminate].
Qed.

(** ** Links *)
Lemma p6_double : forall bk s, m1 RE_P6 bk (91%N :: 91%N :: s) = None.
Proof.
  intros bk s. apply m1_none. intros w t E L. unfold RE_P6 in L. cbn [seq] in L. lcat L u1 u2 A. apply lang_ch in A as ->. lcat L u3 u4 B. apply lang_grp, lang_star in B. lcat L u5 u6 C. apply lang_ch in C as ->.
  cbn [app] in E. injection E as E. destruct B as [|c u3 F _]; cbn [app] in E; [discriminate|]. injection E as <- _. discriminate F.
Qed.
Lemma p6_bare : forall bk a s, ~ In 124%N a -> ~ In 91%N a -> m1 RE_P6 bk (91%N :: a ++ 93%N :: s) = None.
Proof.
  intros bk a s N1 N2. apply m1_none. intros w t E L. unfold RE_P6 in L. cbn [seq] in L. lcat L u1 u2 A. apply lang_ch in A as ->. lcat L u3 u4 B. apply lang_grp, lang_star in B. lcat L u5 u6 C. apply lang_ch in C as ->.
  cbn [app] in E. injection E as E. rewrite <- app_assoc in E. cbn [app] in E. destruct (app_cons_split _ _ _ _ _ E) as [(z & -> & Z)|(z & -> & Z)].
  - apply N1. apply in_or_app. right. left. reflexivity.
  - destruct z as [|c z]; cbn [app] in Z; [discriminate|]. injection Z as <- _. rewrite Forall_forall in B. specialize (B 93%N ltac:(apply in_or_app; right; left; reflexivity)). discriminate B.
Qed.
Lemma nb_ok : forall a, ~ In 91%N a -> ~ In 93%N a -> Forall (fun c => negb (memb c (str "[]")) = true) a.
Proof.
  intros a N1 N2. apply Forall_forall. intros c I. apply none_of_iff. change (str "[]") with [91; 93]%N. intros [<-|[<-|[]]]; auto.
Qed.
Lemma p6_hit : forall a b bk rest, name a -> name b -> exists x, m1 RE_P6 bk (91%N :: a ++ 124%N :: b ++ 93%N :: rest) = Some x /\ ahead x = rest /\ group 2 x = b.
Proof.
  intros a b bk rest A B. apply name_ordinary in A, B.
  assert (FA : Forall (fun c => negb (memb c (str "[]")) = true) a) by (apply nb_ok; apply (ordinary_notin _ _ A); inlist).
  assert (FB : Forall (fun c => negb (memb c (str "[]")) = true) b) by (apply nb_ok; apply (ordinary_notin _ _ B); inlist).
  unfold m1, RE_P6. cbn [seq]. rewrite m_cat, ch_ok, m_cat, m_grp. unfold many, no_brackets, none_of. eexists. split; [|split].
  - change (a ++ 124%N :: b ++ 93%N :: rest) with (a ++ (124%N :: b) ++ 93%N :: rest). apply (greedy_first _ a (124%N :: b) (93%N :: rest)).
    + exact FA.
    + constructor; [reflexivity | exact FB].
    + reflexivity.
    + intros p q E NE. unfold grab. cbn [back ahead caps]. rewrite m_cat. apply ch_fail. destruct p as [|c p]; [congruence|]. cbn [app] in E. injection E as _ E. subst b.
      destruct q as [|d q]; cbn [app begins]; [reflexivity|]. apply Forall_app in B as (_ & B). inversion B as [|? ? O _]; subst.
      destruct (N.eqb_spec 124 d) as [<-|]; [exfalso; apply O; inlist | reflexivity].
    + unfold grab at 1. cbn [back ahead caps]. change ((124%N :: b) ++ 93%N :: rest) with (124%N :: b ++ 93%N :: rest). rewrite m_cat, ch_ok, m_cat, m_grp.
      apply (greedy_first _ b [] (93%N :: rest)); [exact FB | constructor | reflexivity | intros p q E NE; symmetry in E; apply app_eq_nil in E as (-> & _); congruence|].
      unfold grab at 1. cbn [back ahead caps app]. rewrite ch_ok. reflexivity.
  - reflexivity.
  - unfold group, dget_or. cbn [caps dget]. destruct (eq_dec 2 2); [|congruence]. apply taken_app. reflexivity.
Qed.
Lemma no_open_inert : forall r t, headed r 91 -> ~ In 91%N t -> inert r t.
Proof. intros r t H NI. apply (headed_inert r 91); assumption. Qed.
Lemma passes_p6 : passes RE_P6 (group 2) linked bracketed.
Proof.
  intros sg G bk rest. destruct sg as [t|a b|a|c|c|c]; cbn [linked bracketed source]; try reflexivity.
  - apply no_open_inert; [exact headed_p6|]. apply (ordinary_notin _ _ G). inlist.
  - destruct G as (A & B & _). change (str "[[" ++ a ++ str "|" ++ b ++ str "]]") with (91%N :: 91%N :: a ++ 124%N :: b ++ [93; 93]%N). cbn [app]. rewrite sub_none by apply p6_double.
    destruct (p6_hit a b (91%N :: bk) (93%N :: rest) A B) as (x & M & AH & G2).
    assert (E : forall z : pystr, (a ++ 124%N :: b ++ [93; 93]%N) ++ z = a ++ 124%N :: b ++ 93%N :: 93%N :: z) by (intros z; rewrite <- app_assoc; cbn [app]; rewrite <- app_assoc; reflexivity).
    rewrite E. rewrite <- AH in M. replace (91%N :: a ++ 124%N :: b ++ 93%N :: 93%N :: rest) with ((91%N :: a ++ 124%N :: b ++ [93%N]) ++ ahead x) by (rewrite AH; repeat (cbn [app]; rewrite <- app_assoc); reflexivity).
    rewrite sub_hit; [|rewrite <- M; f_equal; repeat (cbn [app]; rewrite <- app_assoc); reflexivity | discriminate].
    rewrite AH, G2, sub_none by (apply (headed_none RE_P6 91%N); [exact headed_p6 | discriminate]). change (str "[" ++ b ++ str "]") with (91%N :: b ++ [93%N]). cbn [app]. f_equal. rewrite <- app_assoc. cbn [app]. do 2 f_equal. f_equal.
    repeat (cbn [rev app]; rewrite ?rev_app_distr, <- ?app_assoc). reflexivity.
  - destruct G as (A & _). apply name_ordinary in A. change (str "[[" ++ a ++ str "]]") with (91%N :: 91%N :: a ++ [93; 93]%N).
    apply (inert_cons RE_P6 91%N (91%N :: a ++ [93; 93]%N)); [intros; apply p6_double|]. apply inert_cons.
    + intros bk' rest'. rewrite <- app_assoc. cbn [app]. apply p6_bare; apply (ordinary_notin _ _ A); inlist.
    + apply no_open_inert; [exact headed_p6|]. intros I. apply in_app_or in I as [I|I]; [revert I; apply (ordinary_notin _ _ A); inlist | vm_compute in I; intuition discriminate].
Qed.
