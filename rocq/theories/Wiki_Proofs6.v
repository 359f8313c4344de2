(** Whole articles of links, comments, footnotes and tags. *)
From Coq Require Import ZifyBool ZifyNat ZifyN.
From Verif Require Import Base Str Tfidf_Spec Text_Model Text_Proofs Text_Properties Regex_Model Wiki_Spec Regex_Proofs Wiki_Model Wiki_Proofs Wiki_Proofs2 Wiki_Proofs3 Wiki_Proofs4 Wiki_Proofs5.
Local Open Scope nat_scope.

(** ** Facts that hold for each segment and for a text of them *)
Lemma all_notin : forall (f : seg -> pystr) c segs, (forall s, In s segs -> ~ In c (f s)) -> ~ In c (concat (map f segs)).
Proof. intros f c segs H I. apply in_concat in I as (w & I & J). apply in_map_iff in I as (s & <- & I). exact (H s I J). Qed.
Lemma all_lift : forall (P : pystr -> Prop) (f : seg -> pystr) segs, P [] -> (forall a b, P a -> P b -> P (a ++ b)) -> Forall (fun s => P (f s)) segs -> P (concat (map f segs)).
Proof. intros P f segs H0 H F. induction F as [|s segs G F IH]; cbn [map concat]; [exact H0 | apply H; assumption]. Qed.
Ltac noin := let I := fresh in intros I; vm_compute in I; repeat (destruct I as [I|I]; [discriminate I|]); destruct I.
Ltac oin H := apply (ordinary_notin _ _ H); inlist.
Ltac pieces := repeat (let I := fresh in intros I; apply in_app_or in I; destruct I as [I|I]; revert I); try noin.

(** ** Brackets *)
Lemma barred_link : forall a c z, ~ In 91%N a -> ~ In 58%N a -> c = 124%N \/ c = 93%N -> ~ In 91%N (c :: z) -> barred (str "[[" ++ a ++ c :: z).
Proof.
  intros a c z N1 N2 C NZ x y E. change (str "[[" ++ a ++ c :: z) with (91%N :: 91%N :: a ++ c :: z) in E. destruct x as [|d [|e x]]; cbn [app] in E.
  - injection E as <-. exists (91%N :: a), c, z. split; [reflexivity|]. split; [intros [K|K]; [discriminate | exact (N2 K)] | exact C].
  - injection E as _ <-. exists a, c, z. repeat split; assumption.
  - injection E as _ _ E. exfalso. destruct (app_cons_split _ _ _ _ _ E) as [(w & -> & _)|(w & -> & Z)]; [apply N1; apply in_or_app; right; left; reflexivity|]. apply NZ. rewrite Z. apply in_or_app. right. left. reflexivity.
Qed.
Lemma name_notin : forall a d, name a -> In d (str "<>[]|{!&") -> ~ In d a.
Proof. intros a d A I. apply ordinary_notin; [apply name_ordinary, A | exact I]. Qed.
Ltac nin H := apply (name_notin _ _ H); inlist.
Lemma barred_source : forall s, good_seg s -> barred (source s).
Proof.
  intros [t|a b|a|c|c|c] G; cbn [source good_seg] in *.
  - apply barred_none. oin G.
  - destruct G as (A & B & _). apply (barred_link a 124%N (b ++ str "]]")); [nin A | apply name_no_colon, A | auto|]. intros [K|K]; [discriminate|]. revert K. pieces. nin B.
  - destruct G as (A & _). apply (barred_link a 93%N (str "]")); [nin A | apply name_no_colon, A | auto | noin].
  - apply barred_none. pieces. oin G.
  - apply barred_none. pieces. oin G.
  - destruct G as (G & _). apply barred_none. pieces. oin G.
Qed.
Lemma barred_linked : forall s, good_seg s -> barred (linked s).
Proof. intros [t|a b|a|c|c|c] G; cbn [linked]; try solve [apply barred_none; intros []]; exact (barred_source _ G). Qed.
Lemma barred_bracketed : forall s, good_seg s -> barred (bracketed s).
Proof.
  intros [t|a b|a|c|c|c] G; cbn [bracketed]; try solve [apply barred_none; intros []]; try exact (barred_source _ G).
  destruct G as (_ & B & _). intros x y E. change (str "[" ++ b ++ str "]") with (91%N :: b ++ [93%N]) in E. destruct x as [|d x]; cbn [app] in E.
  - injection E as <-. exists b, 93%N, []. split; [reflexivity|]. split; [apply name_no_colon, B | auto].
  - injection E as _ E. exfalso. assert (I : In 91%N (b ++ [93%N])) by (rewrite E; apply in_or_app; right; left; reflexivity). revert I. pieces. nin B.
Qed.
Lemma barred_nil : barred []. Proof. apply barred_none. intros []. Qed.

Lemma settled_link : forall x, ~ In 91%N x -> (forall w, In w file_words -> ~ exists d, str "[[" ++ x ++ str "]]" = w ++ d) -> settled (str "[[" ++ x ++ str "]]").
Proof.
  intros x NX H. split.
  - intros w I (u & v & E). destruct (word_shape w I) as (w' & W & _). change (str "[[" ++ x ++ str "]]") with (91%N :: 91%N :: x ++ [93; 93]%N) in E. destruct u as [|d [|e u]].
    + apply (H w I). exists v. exact E.
    + rewrite W in E. cbn [app] in E. injection E as _ E. destruct x as [|c x]; cbn [app] in E; [discriminate|]. injection E as -> _. apply NX. left. reflexivity.
    + rewrite W in E. cbn [app] in E. injection E as _ _ E. assert (J : In 91%N (x ++ [93; 93]%N)) by (rewrite E; apply in_or_app; right; left; reflexivity). revert J. pieces. exact NX.
  - intros a b E. change (str "[[" ++ x ++ str "]]") with (91%N :: 91%N :: x ++ [93; 93]%N) in E. destruct a as [|d [|e a]]; cbn [app] in E.
    + injection E as <-. right. apply in_or_app. right. left. reflexivity.
    + injection E as _ <-. apply in_or_app. right. left. reflexivity.
    + injection E as _ _ E. exfalso. assert (J : In 91%N (x ++ [93; 93]%N)) by (rewrite E; apply in_or_app; right; left; reflexivity). revert J. pieces. exact NX.
Qed.
Lemma word_before : forall w a c z, In w file_words -> c = 124%N \/ c = 93%N -> (exists d, str "[[" ++ a ++ c :: z = w ++ d) -> exists d, str "[[" ++ a = w ++ d.
Proof.
  intros w a c z I C (d & E). apply (prefix_before w (str "[[" ++ a) z c) with (t := d); [|rewrite <- app_assoc; symmetry; exact E].
  destruct C as [->| ->]; destruct I as [<-|[<-|[<-|[<-|[]]]]]; noin.
Qed.
Lemma settled_source : forall s, good_seg s -> settled (source s).
Proof.
  intros [t|a b|a|c|c|c] G; cbn [source good_seg] in *.
  - apply settled_none. oin G.
  - destruct G as (A & B & H). replace (str "[[" ++ a ++ str "|" ++ b ++ str "]]") with (str "[[" ++ (a ++ str "|" ++ b) ++ str "]]") by (rewrite <- !app_assoc; reflexivity).
    apply settled_link; [pieces; [nin A | nin B]|]. intros w I K. apply (H w I). apply (word_before w a 124%N (b ++ str "]]") I); [auto|]. destruct K as (d & K). exists d. rewrite <- K, <- !app_assoc. reflexivity.
  - destruct G as (A & H). apply settled_link; [nin A|]. intros w I K. apply (H w I). apply (word_before w a 93%N (str "]") I); [auto | exact K].
  - apply settled_none. pieces. oin G.
  - apply settled_none. pieces. oin G.
  - destruct G as (G & _). apply settled_none. pieces. oin G.
Qed.
Lemma file_settled : forall s, settled s -> remove_file s = s.
Proof. intros s H. exact (files_exact [] s (Forall_nil _) H). Qed.

(** ** No opened bracket is closed at once. *)
Definition filled (s : pystr) : Prop := (forall a b, s = a ++ 91%N :: b -> exists c t, b = c :: t /\ c <> 93%N).
Lemma filled_app : forall s t, filled s -> filled t -> filled (s ++ t).
Proof.
  intros s t A B a b E. destruct (app_cons_split _ _ _ _ _ E) as [(z & -> & ->)|(z & -> & ->)].
  - destruct (A a z eq_refl) as (c & u & -> & NC). exists c, (u ++ t). split; [reflexivity | exact NC].
  - exact (B z b eq_refl).
Qed.
Lemma filled_none : forall s, ~ In 91%N s -> filled s.
Proof. intros s NI a b ->. exfalso. apply NI. apply in_or_app. right. left. reflexivity. Qed.
Lemma filled_empty : forall s, filled s -> ~ infix (str "[]") s.
Proof. intros s F (u & v & E). change (str "[]" ++ v) with (91%N :: 93%N :: v) in E. destruct (F u _ E) as (c & t & K & NC). injection K as K _. congruence. Qed.
Lemma filled_one : forall c x, c <> 93%N -> filled (c :: x) -> filled (91%N :: c :: x).
Proof. intros c x NC F [|d a] b E; cbn [app] in E; [injection E as <-; exists c, x; auto | injection E as _ E; exact (F a b E)]. Qed.
Lemma filled_name : forall a z, name a -> ~ In 91%N z -> filled (91%N :: a ++ z).
Proof.
  intros a z A NZ. assert (FN : filled (a ++ z)) by (apply filled_none; pieces; [nin A | exact NZ]). destruct a as [|c a]; [destruct A; congruence|]. cbn [app] in *. apply filled_one; [|exact FN].
  intros ->. refine (name_notin _ 93%N A _ _); [inlist | left; reflexivity].
Qed.
Lemma filled_linked : forall s, good_seg s -> filled (linked s).
Proof.
  intros [t|a b|a|c|c|c] G; cbn [linked source good_seg] in *; try solve [apply filled_none; intros []].
  - apply filled_none. oin G.
  - destruct G as (A & B & _). apply (filled_one 91%N (a ++ str "|" ++ b ++ str "]]")); [discriminate|]. apply filled_name; [exact A|]. pieces. nin B.
  - destruct G as (A & _). apply (filled_one 91%N (a ++ str "]]")); [discriminate|]. apply filled_name; [exact A | noin].
Qed.
Lemma filled_bracketed : forall s, good_seg s -> filled (bracketed s).
Proof.
  intros [t|a b|a|c|c|c] G; try exact (filled_linked _ G). cbn [bracketed]. destruct G as (_ & B & _). apply (filled_name b (str "]")); [exact B | noin].
Qed.

(** ** What surrounds the bar *)
Definition bars (s : pystr) : Prop := forall x y, s = x ++ 124%N :: y -> (exists x' d, x = x' ++ [d] /\ ~ In d [10; 9; 32]%N) /\ (exists e y', y = e :: y' /\ ~ In e (str "-}|")).
Lemma bars_app : forall s t, bars s -> bars t -> bars (s ++ t).
Proof.
  intros s t A B x y E. destruct (app_cons_split _ _ _ _ _ E) as [(z & -> & ->)|(z & -> & ->)].
  - destruct (A x z eq_refl) as (P & e & y' & -> & Q). split; [exact P|]. exists e, (y' ++ t). split; [reflexivity | exact Q].
  - destruct (B z y eq_refl) as ((x' & d & -> & P) & Q). split; [|exact Q]. exists (s ++ x'), d. split; [apply app_assoc | exact P].
Qed.
Lemma bars_none : forall s, ~ In 124%N s -> bars s.
Proof. intros s NI x y ->. exfalso. apply NI. apply in_or_app. right. left. reflexivity. Qed.
Lemma bars_linked : forall s, good_seg s -> good_link s -> bars (linked s).
Proof.
  intros [t|a b|a|c|c|c] G L; cbn [linked source good_seg good_link] in *; try solve [apply bars_none; intros []].
  - apply bars_none. oin G.
  - destruct G as (A & B & _). destruct L as (LA & LB & L1 & L2). intros x y E. assert (E' : (str "[[" ++ a) ++ 124%N :: b ++ str "]]" = x ++ 124%N :: y) by (rewrite <- E, <- app_assoc; reflexivity).
    assert (K : x = str "[[" ++ a /\ y = b ++ str "]]").
    { destruct (app_cons_split _ _ _ _ _ E') as [(z & Z & _)|(z & -> & Z)].
      - exfalso. assert (I : In 124%N (str "[[" ++ a)) by (rewrite Z; apply in_or_app; right; left; reflexivity). revert I. pieces. nin A.
      - destruct z as [|d z]; cbn [app] in Z; [injection Z as <-; split; [apply app_nil_r | reflexivity]|]. injection Z as _ Z. exfalso.
        assert (I : In 124%N (b ++ str "]]")) by (rewrite Z; apply in_or_app; right; left; reflexivity). revert I. pieces. nin B. }
    destruct K as (-> & ->). split.
    + destruct A as (NA & _). destruct (exists_last NA) as (a' & d & ->). exists (str "[[" ++ a'), d. split; [apply app_assoc|]. rewrite last_last in L1. intros [<-|[<-|[<-|[]]]].
      * apply LA. apply in_or_app. right. left. reflexivity.
      * apply L1. inlist.
      * apply L1. inlist.
    + assert (B' := B). destruct B' as (NB & _). destruct b as [|e b]; [congruence|]. exists e, (b ++ str "]]"). split; [reflexivity|]. cbn [hd] in L2. intros I.
      change (str "-}|") with [45; 125; 124]%N in I. destruct I as [<-|[<-|[<-|[]]]].
      * apply L2. inlist.
      * apply L2. inlist.
      * refine (name_notin _ 124%N B _ _); [inlist | left; reflexivity].
  - destruct G as (A & _). apply bars_none. pieces. nin A.
Qed.
Lemma bars_infix : forall s c z, bars s -> In c (str "-}|") -> ~ infix (124%N :: c :: z) s.
Proof. intros s c z B I (u & v & E). cbn [app] in E. destruct (B u _ E) as (_ & e & y & K & NI). injection K as <- _. exact (NI I). Qed.
Lemma bars_quiet : forall s, bars s -> ~ In 33%N s -> quiet s.
Proof.
  intros s B NI a c b E [->| ->]; [|exfalso; apply NI; rewrite E; apply in_or_app; right; left; reflexivity].
  destruct (B a b E) as ((x' & d & -> & K) & _). right. exists x', d. split; [reflexivity | exact K].
Qed.

Section Wiki.
Context (wordc decimal : N -> bool) (bar_no_word : wordc 124%N = false) (close_no_word : wordc 93%N = false).

(** The part of a pass that comes after the links. *)
Definition tables (t : pystr) : pystr :=
  let t := replace (str "!!") (nl :: str "|") t in
  let t := replace (str "|-||") (nl :: str "|") t in
  let t := sub (RE_P12 decimal) newline t in
  let t := replace (str "|||") (str "|" ++ nl :: str "|") t in
  let t := replace (str "||") (nl :: str "|") t in
  let t := sub RE_P13 newline t in
  let t := sub (RE_P17 decimal) newline t in
  replace (str "[]") [] t.
Lemma tables_same : forall t, bars t -> ~ In 33%N t -> ~ In 123%N t -> filled t -> no_attribute t -> tables t = t.
Proof.
  intros t B N33 N123 F NA. unfold tables. rewrite (replace_same (str "!!")) by (try discriminate; intros I; apply N33; apply (infix_in _ _ _ I); left; reflexivity).
  rewrite (replace_same (str "|-||")) by (try discriminate; (apply (bars_infix t 45%N); [exact B | inlist])).
  rewrite sub_table.
  2:{ intros [I|[I|I]]; [apply N123; apply (infix_in _ _ _ I); left; reflexivity | revert I; apply (bars_infix t 45%N []); [exact B | inlist] | revert I; apply (bars_infix t 125%N []); [exact B | inlist]]. }
  rewrite (replace_same (str "|||")) by (try discriminate; (apply (bars_infix t 124%N); [exact B | inlist])).
  rewrite (replace_same (str "||")) by (try discriminate; (apply (bars_infix t 124%N); [exact B | inlist])).
  rewrite (sub_quiet decimal) by exact (bars_quiet t B N33). rewrite sub_attribute by exact NA. apply replace_same; [discriminate | apply filled_empty, F].
Qed.
Definition links (simplify : bool) (t : pystr) : pystr :=
  let t := sub RE_P14 gone t in
  let t := sub (RE_P5 wordc) (group 3) t in
  if simplify then sub RE_P6 (group 2) t else t.
Lemma links_barred : forall simplify t, barred t -> links simplify t = if simplify then sub RE_P6 (group 2) t else t.
Proof.
  intros simplify t B. unfold links. rewrite (sub_barred RE_P14) by (try exact p14_colon; exact B). rewrite (sub_barred (RE_P5 wordc)) by (try apply p5_colon; assumption; exact B). reflexivity.
Qed.
Definition tags (t : pystr) : pystr :=
  let t := sub RE_P0 gone t in
  let t := sub RE_P1 gone t in
  let t := sub RE_P9 gone t in
  let t := sub RE_P10 gone t in
  sub RE_P11 gone t.
Lemma pass_parts : forall simplify t, markup_pass wordc decimal simplify t = tables (links simplify (tags t)).
Proof. reflexivity. Qed.
Lemma tags_exact : forall segs, Forall good_seg segs -> tags (concat (map source segs)) = concat (map linked segs).
Proof.
  intros segs F. unfold tags. rewrite (passes_all _ _ _ _ passes_p0 segs F), (passes_all _ _ _ _ passes_p1 segs F).
  rewrite (passes_all RE_P9 gone f2 f2 (passes_element "nowiki" (or_introl eq_refl)) segs F).
  rewrite (passes_all RE_P10 gone f2 f2 (passes_element "math" (or_intror eq_refl)) segs F).
  apply (passes_all _ _ _ _ passes_p11 segs F).
Qed.
Lemma tags_same : forall t, ~ In 60%N t -> tags t = t.
Proof.
  intros t N60. unfold tags. rewrite (sub_headed RE_P0 60) by (try exact headed_p0; exact N60). rewrite (sub_headed RE_P1 60) by (try apply headed_element; exact N60).
  rewrite (sub_headed RE_P9 60) by (try apply headed_element; exact N60). rewrite (sub_headed RE_P10 60) by (try apply headed_element; exact N60).
  apply (sub_headed RE_P11 60); [exact headed_p11 | exact N60].
Qed.
Lemma source_clean : forall s d, good_seg s -> In d (str "{&") -> ~ In d (source s).
Proof.
  intros s d G I. assert (D : In d (str "<>[]|{!&")) by (change (str "{&") with [123; 38]%N in I; destruct I as [<-|[<-|[]]]; inlist).
  destruct s as [t|a b|a|c|c|c]; cbn [source good_seg] in *; change (str "{&") with [123; 38]%N in I; destruct I as [<-|[<-|[]]]; try (oin G);
    try (destruct G as (A & B & _); pieces; [nin A | nin B]); try (destruct G as (A & B); pieces; nin A); try (pieces; oin G); destruct G as (G & _); pieces; oin G.
Qed.
Lemma linked_clean : forall s d, good_seg s -> In d [60; 33; 123]%N -> ~ In d (linked s).
Proof.
  intros s d G I. assert (D : In d (str "<>[]|{!&")) by (destruct I as [<-|[<-|[<-|[]]]]; inlist).
  destruct s as [t|a b|a|c|c|c]; cbn [linked source good_seg] in *; try solve [intros []].
  - apply ordinary_notin; assumption.
  - destruct G as (A & B & _). intros J. apply in_app_or in J as [J|J]; [destruct I as [<-|[<-|[<-|[]]]]; revert J; noin|]. apply in_app_or in J as [J|J]; [revert J; apply name_notin; assumption|].
    apply in_app_or in J as [J|J]; [destruct I as [<-|[<-|[<-|[]]]]; revert J; noin|]. apply in_app_or in J as [J|J]; [revert J; apply name_notin; assumption|]. destruct I as [<-|[<-|[<-|[]]]]; revert J; noin.
  - destruct G as (A & _). intros J. apply in_app_or in J as [J|J]; [destruct I as [<-|[<-|[<-|[]]]]; revert J; noin|]. apply in_app_or in J as [J|J]; [revert J; apply name_notin; assumption|]. destruct I as [<-|[<-|[<-|[]]]]; revert J; noin.
Qed.
Lemma bracketed_clean : forall s d, good_seg s -> In d [60; 33; 123; 124]%N -> ~ In d (bracketed s).
Proof.
  intros s d G I. assert (D : In d (str "<>[]|{!&")) by (destruct I as [<-|[<-|[<-|[<-|[]]]]]; inlist).
  destruct s as [t|a b|a|c|c|c]; cbn [bracketed source good_seg] in *; try solve [intros []].
  - apply ordinary_notin; assumption.
  - destruct G as (_ & B & _). intros J. apply in_app_or in J as [J|J]; [destruct I as [<-|[<-|[<-|[<-|[]]]]]; revert J; noin|]. apply in_app_or in J as [J|J]; [revert J; apply name_notin; assumption|]. destruct I as [<-|[<-|[<-|[<-|[]]]]]; revert J; noin.
  - destruct G as (A & _). intros J. apply in_app_or in J as [J|J]; [destruct I as [<-|[<-|[<-|[<-|[]]]]]; revert J; noin|]. apply in_app_or in J as [J|J]; [revert J; apply name_notin; assumption|]. destruct I as [<-|[<-|[<-|[<-|[]]]]]; revert J; noin.
Qed.
Lemma loop_reached : forall n simplify s t, markup_pass wordc decimal simplify s = t -> markup_pass wordc decimal simplify t = t -> markup_loop wordc decimal (S n) simplify s = t.
Proof.
  intros n simplify s t E E'. cbn [markup_loop]. rewrite E. unfold eqb. destruct (eq_dec s t); [reflexivity | apply loop_same, E'].
Qed.
Lemma lift : forall (P : pystr -> Prop) (f : seg -> pystr) segs, Forall good_seg segs -> P [] -> (forall a b, P a -> P b -> P (a ++ b)) -> (forall s, good_seg s -> P (f s)) -> P (concat (map f segs)).
Proof. intros P f segs F H0 H G. apply all_lift; [exact H0 | exact H|]. eapply Forall_impl; [exact G | exact F]. Qed.
Lemma begun : forall segs, Forall good_seg segs -> remove_file (remove_template (sub (RE_P2 wordc) gone (concat (map source segs)))) = concat (map source segs).
Proof.
  intros segs F. assert (Fin : forall s, In s segs -> good_seg s) by (apply Forall_forall, F).
  rewrite (sub_barred (RE_P2 wordc)) by (try exact (p2_colon wordc bar_no_word close_no_word); apply (lift barred source segs F barred_nil barred_app barred_source)).
  rewrite template_plain.
  - apply file_settled. apply (lift settled source segs F); [apply settled_none; intros [] | exact settled_app | exact settled_source].
  - intros I. apply (all_notin source 123%N segs); [intros s J; apply source_clean; [apply Fin, J | inlist]|]. apply (infix_in _ _ _ I). left. reflexivity.
Qed.
Lemma promoted_text : forall segs, Forall good_seg segs -> filter (fun d => negb (N.eqb 91 d) && negb (N.eqb 93 d)) (concat (map bracketed segs)) = concat (map shown_text segs).
Proof.
  intros segs F.
  assert (K : forall t : pystr, ~ In 91%N t -> ~ In 93%N t -> filter (fun d => negb (N.eqb 91 d) && negb (N.eqb 93 d)) t = t).
  { intros t N1 N2. induction t as [|c t IH]; [reflexivity|]. cbn [filter]. destruct (N.eqb_spec 91 c) as [E|_]; [exfalso; apply N1; left; auto|]. destruct (N.eqb_spec 93 c) as [E|_]; [exfalso; apply N2; left; auto|].
    cbn [negb andb]. f_equal. apply IH; intros I; [apply N1 | apply N2]; right; exact I. }
  assert (FA : forall a b : pystr, filter (fun d => negb (N.eqb 91 d) && negb (N.eqb 93 d)) (a ++ b) = filter (fun d => negb (N.eqb 91 d) && negb (N.eqb 93 d)) a ++ filter (fun d => negb (N.eqb 91 d) && negb (N.eqb 93 d)) b).
  { intros a b. induction a as [|c a IH]; [reflexivity|]. cbn [app filter]. rewrite IH. destruct (negb _ && negb _); reflexivity. }
  induction F as [|s segs G F IH]; cbn [map concat]; [reflexivity|]. rewrite FA, IH. f_equal.
  destruct s as [t|a b|a|c|c|c]; cbn [bracketed shown_text good_seg] in *; try reflexivity.
  - apply K; oin G.
  - destruct G as (_ & B & _). rewrite !FA. change (b) with ([] ++ b) at 2. rewrite (K b) by nin B. cbn [app]. change (filter _ (str "]")) with (@nil N). change (filter _ (str "[")) with (@nil N). apply app_nil_r.
  - destruct G as (A & _). rewrite !FA, (K a) by nin A. change (filter _ (str "]]")) with (@nil N). change (filter _ (str "[[")) with (@nil N). apply app_nil_r.
Qed.
Lemma markup_exact_segs : forall segs, Forall good_seg segs -> no_attribute (concat (map bracketed segs)) ->
  remove_markup wordc decimal true true (concat (map source segs)) = concat (map shown_text segs).
Proof.
  intros segs F NA. assert (Fin : forall s, In s segs -> good_seg s) by (apply Forall_forall, F). unfold remove_markup. rewrite begun by exact F.
  set (T := concat (map bracketed segs)) in *.
  assert (NB : forall d, In d [60; 33; 123; 124]%N -> ~ In d T) by (intros d I; apply all_notin; intros s J; apply bracketed_clean; [apply Fin, J | exact I]).
  assert (TS : tables T = T).
  { apply tables_same; [apply bars_none, NB; cbn [In]; tauto | apply NB; cbn [In]; tauto | apply NB; cbn [In]; tauto | | exact NA]. apply (lift filled bracketed segs F); [apply filled_none; intros [] | exact filled_app | exact filled_bracketed]. }
  rewrite (loop_reached 1 true (concat (map source segs)) T).
  - rewrite promoted. apply promoted_text, F.
  - rewrite pass_parts, tags_exact by exact F. rewrite links_barred by (apply (lift barred linked segs F barred_nil barred_app barred_linked)).
    rewrite (passes_all _ _ _ _ passes_p6 segs F). exact TS.
  - rewrite pass_parts, tags_same by (apply NB; cbn [In]; tauto). rewrite links_barred by (apply (lift barred bracketed segs F barred_nil barred_app barred_bracketed)).
    assert (E6 : sub RE_P6 (group 2) T = T) by (apply sub_same; intros a w b E _ L; apply (NB 124%N); [cbn [In]; tauto|]; rewrite E; apply in_infix, p6_bar, L). rewrite E6. exact TS.
Qed.
(** With the links left alone *)
Lemma linked_exact : forall segs, Forall good_seg segs -> Forall good_link segs -> no_attribute (concat (map linked segs)) ->
  remove_markup wordc decimal false false (concat (map source segs)) = concat (map linked segs).
Proof.
  intros segs F FL NA. assert (Fin : forall s, In s segs -> good_seg s) by (apply Forall_forall, F). unfold remove_markup. rewrite begun by exact F.
  set (T := concat (map linked segs)) in *.
  assert (NB : forall d, In d [60; 33; 123]%N -> ~ In d T) by (intros d I; apply all_notin; intros s J; apply linked_clean; [apply Fin, J | exact I]).
  assert (BT : bars T).
  { apply all_lift; [apply bars_none; intros [] | exact bars_app|]. rewrite Forall_forall in *. intros s I. apply bars_linked; auto. }
  assert (TS : tables T = T).
  { apply tables_same; [exact BT | apply NB; cbn [In]; tauto | apply NB; cbn [In]; tauto | | exact NA]. apply (lift filled linked segs F); [apply filled_none; intros [] | exact filled_app | exact filled_linked]. }
  assert (LT : links false T = T) by (apply links_barred; apply (lift barred linked segs F barred_nil barred_app barred_linked)).
  apply (loop_reached 1 false).
  - rewrite pass_parts, tags_exact by exact F. fold T. rewrite LT. exact TS.
  - rewrite pass_parts, tags_same by (apply NB; cbn [In]; tauto). rewrite LT. exact TS.
Qed.

(** ** The links of an article *)
Lemma p16_hit : forall u bk rest, ~ In 93%N u -> on_one_line u -> exists x, m1 RE_P16 bk (str "[[" ++ u ++ str "]]" ++ rest) = Some x /\ ahead x = rest /\ group 1 x = u.
Proof.
  intros u bk rest NI OL. unfold m1, RE_P16. cbn [seq]. rewrite m_cat, lit_ok, m_cat, m_grp. eexists. split; [|split].
  - apply (lazy_first _ u (str "]]" ++ rest)).
    + apply Forall_forall. intros c I. destruct (N.eqb_spec c nl) as [->|]; [exfalso; exact (OL I) | reflexivity].
    + intros u1 u2 -> NE. unfold grab. cbn [back ahead caps]. apply lit_fail. destruct u2 as [|a u2]; [congruence|]. change (str "]]") with [93; 93]%N. cbn [app begins].
      destruct (N.eqb_spec 93 a) as [<-|]; [exfalso; apply NI; apply in_or_app; right; left; reflexivity | reflexivity].
    + unfold grab. cbn [back ahead caps]. rewrite lit_ok. reflexivity.
  - reflexivity.
  - unfold group, dget_or. cbn [caps dget]. destruct (eq_dec 1 1); [|congruence]. apply taken_app. reflexivity.
Qed.
Definition found (g : list (pystr * st)) : list (pystr * pystr) :=
  filter (fun ij => negb (memb 91%N (fst ij)) && negb (memb 93%N (fst ij))) (map (fun g => interlink (group 1 (snd g))) g).
Lemma title_kept : forall (i j : pystr), ~ In 91%N i -> ~ In 93%N i -> (fun ij : pystr * pystr => negb (memb 91%N (fst ij)) && negb (memb 93%N (fst ij))) (i, j) = true.
Proof. intros i j N1 N2. cbn [fst]. apply memb_false in N1, N2. rewrite N1, N2. reflexivity. Qed.
Lemma found_linked : forall segs bk, Forall good_seg segs -> Forall good_link segs -> found (finditer_from RE_P16 0 bk (concat (map linked segs))) = concat (map links_of segs).
Proof.
  induction segs as [|s segs IH]; intros bk F L; cbn [map concat]; [reflexivity|]. inversion F as [|? ? G F']; subst. inversion L as [|? ? GL L']; subst.
  destruct s as [t|a b|a|c|c|c]; cbn [linked source links_of app]; try (apply IH; assumption).
  - rewrite finditer_over; [apply IH; assumption|]. intros x d y bk' E. apply (headed_none RE_P16 91%N); [exact headed_p16|]. intros ->. cbn [good_seg] in G. apply (ordinary_notin _ 91%N G); [inlist|]. rewrite E. apply in_or_app. right. left. reflexivity.
  - destruct G as (A & B & _). destruct GL as (OA & OB & _). set (rest := concat (map linked segs)).
    destruct (p16_hit (a ++ str "|" ++ b) bk rest) as (x & M & AH & G1); [pieces; [nin A | nin B] | unfold on_one_line; pieces; assumption|].
    assert (W : str "[[" ++ (a ++ str "|" ++ b) ++ str "]]" ++ rest = (str "[[" ++ a ++ str "|" ++ b ++ str "]]") ++ ahead x) by (rewrite AH, <- !app_assoc; reflexivity).
    rewrite W in M. rewrite <- AH. rewrite finditer_hit by (try exact M; discriminate). unfold found. cbn [map snd]. rewrite G1.
    assert (IL : interlink (a ++ str "|" ++ b) = (a, b)) by (unfold interlink; change (str "|" ++ b) with (124%N :: b); rewrite split_on_app by nin A; rewrite split_on_word by nin B; reflexivity).
    rewrite IL. cbn [filter]. rewrite title_kept by nin A. f_equal. rewrite AH. apply (IH _ F' L').
  - destruct G as (A & _). set (rest := concat (map linked segs)). destruct (p16_hit a bk rest) as (x & M & AH & G1); [nin A | exact GL|].
    assert (W : str "[[" ++ a ++ str "]]" ++ rest = (str "[[" ++ a ++ str "]]") ++ ahead x) by (rewrite AH, <- !app_assoc; reflexivity).
    rewrite W in M. rewrite <- AH. rewrite finditer_hit by (try exact M; discriminate). unfold found. cbn [map snd]. rewrite G1.
    assert (IL : interlink a = (a, a)) by (unfold interlink; rewrite split_on_word by nin A; reflexivity).
    rewrite IL. cbn [filter]. rewrite title_kept by nin A. f_equal. rewrite AH. apply (IH _ F' L').
Qed.
Lemma interlinks_exact : forall n2cp segs, Forall good_seg segs -> Forall good_link segs -> no_attribute (concat (map linked segs)) ->
  find_interlinks wordc decimal n2cp (concat (map source segs)) = concat (map links_of segs).
Proof.
  intros n2cp segs F L NA. unfold find_interlinks, filter_wiki. rewrite decode_plain.
  - rewrite linked_exact by assumption. apply (found_linked segs [] F L).
  - apply all_notin. intros s I. rewrite Forall_forall in F. apply source_clean; [apply F, I | inlist].
Qed.
Lemma article_exact : forall n2cp segs, Forall good_seg segs -> no_attribute (concat (map bracketed segs)) ->
  filter_wiki wordc decimal n2cp true true (concat (map source segs)) = concat (map shown_text segs).
Proof.
  intros n2cp segs F NA. unfold filter_wiki. rewrite decode_plain.
  - apply markup_exact_segs; assumption.
  - apply all_notin. intros s I. rewrite Forall_forall in F. apply source_clean; [apply F, I | inlist].
Qed.
End Wiki.
