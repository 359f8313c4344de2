(** What reading a dump of wiki pages ought to give (property C101). *)
From Verif Require Import Base Str Wiki_Spec WikiPages_Model.
Local Open Scope nat_scope.

(** ** Dumps *)
Section Dump.
Context (namespace : pystr).
Definition is_tag (n : String.string) (e : elem) : Prop := e_tag e = [123%N] ++ namespace ++ [125%N] ++ str n.
Definition first_child (n : String.string) (e k : elem) : Prop :=
  exists a b, e_kids e = a ++ k :: b /\ is_tag n k /\ Forall (fun x => ~ is_tag n x) a.
Inductive within (x : elem) : elem -> Prop :=
| in_self : within x x
| in_kid : forall e k, In k (e_kids e) -> within x k -> within x e.
Record page : Type := mkPage { p_elem : elem; p_title : pystr; p_ns : option pystr; p_id : option pystr; p_text : option pystr }.
Definition page_of (p : page) : Prop :=
  is_tag "page" (p_elem p) /\
  (exists k, first_child "title" (p_elem p) k /\ e_text k = Some (p_title p)) /\
  (exists k, first_child "ns" (p_elem p) k /\ e_text k = p_ns p) /\
  (exists k, first_child "id" (p_elem p) k /\ e_text k = p_id p) /\
  (exists r k, first_child "revision" (p_elem p) r /\ first_child "text" r k /\ e_text k = p_text p) /\
  (forall k x, In k (e_kids (p_elem p)) -> within x k -> ~ is_tag "page" x).
(** Pages and other elements, which contain no page *)
Inductive listed : list elem -> list page -> Prop :=
| l_nil : listed [] []
| l_other : forall e es ps, (forall x, within x e -> ~ is_tag "page" x) -> listed es ps -> listed (e :: es) ps
| l_page : forall p es ps, page_of p -> listed es ps -> listed (p_elem p :: es) (p :: ps).
Inductive first_leaf : elem -> elem -> Prop :=
| leaf_self : forall e, e_kids e = [] -> first_leaf e e
| leaf_kid : forall e k ks x, e_kids e = k :: ks -> first_leaf k x -> first_leaf e x.
Definition dump (root : elem) (ps : list page) : Prop :=
  ~ is_tag "page" root /\ e_kids root <> [] /\ listed (e_kids root) ps /\
  (exists x n, first_leaf root x /\ is_tag n x) /\
  (exists v, namespace = str "http://www.mediawiki.org/xml/export-" ++ v) /\ ~ In 125%N namespace /\ ~ In 10%N namespace.
End Dump.

(** Which pages are asked for *)
Definition wanted (namespaces : list pystr) (f : option article_filter) (p : page) : Prop :=
  (namespaces = [] \/ exists n, p_ns p = Some n /\ In n namespaces) /\
  match f with Some g => g (p_elem p) (Some (p_title p)) (p_text p) = true | None => True end.
Definition page_text (p : page) : pystr := match p_text p with Some t => t | None => [] end.
Definition not_articles : list pystr :=
  map str ["Wikipedia:"; "Category:"; "File:"; "Portal:"; "Template:"; "MediaWiki:"; "User:"; "Help:"; "Book:"; "Draft:"; "WikiProject:"; "Special:"; "Talk:"]%string.
Definition no_article (title : pystr) : Prop := exists i t, In i not_articles /\ title = i ++ t.

(** ** Sections *)
Definition eqs : pystr := str "==".
Definition mark (hb : pystr * pystr) : pystr := [10%N] ++ eqs ++ fst hb ++ eqs ++ [10%N] ++ snd hb.
(** A heading has two characters or more, the first and the last are no "=", and those between are on one line. *)
Definition heading (h : pystr) : Prop := exists c u d, h = c :: u ++ [d] /\ c <> 61%N /\ d <> 61%N /\ ~ In 10%N u.
Definition heading_line (w : pystr) : Prop := exists h, heading h /\ w = [10%N] ++ eqs ++ h ++ eqs ++ [10%N].
(** Lines that begin with "==" begin with "===". *)
Definition no_sections (t : pystr) : Prop := forall a b, t = a ++ [10%N] ++ eqs ++ b -> exists b', b = 61%N :: b'.
(** No heading is left inside. *)
Definition free (b : pystr) : Prop := forall w, heading_line w -> ~ infix w b.
Definition good_section (hb : pystr * pystr) : Prop := heading (fst hb) /\ ~ In 10%N (fst hb) /\ no_sections (10%N :: snd hb).
(** The text cut at headings, nothing lost *)
Definition cut (t lead : pystr) (hs bodies : list pystr) : Prop :=
  length hs = length bodies /\ Forall heading hs /\ Forall free (lead :: bodies) /\ t = lead ++ concat (map mark (combine hs bodies)).
Definition segmented (clean : pystr -> pystr) (t : pystr) (sections : list (pystr * pystr)) : Prop :=
  exists lead hs bodies, cut t lead hs bodies /\ sections = combine (str "Introduction" :: map (strip is_space) hs) (map clean (lead :: bodies)).

(** ** The ones that hold, in order *)
Inductive picks {A : Type} (P : A -> Prop) : list A -> list A -> Prop :=
| pick_nil : picks P [] []
| pick_yes : forall x l r, P x -> picks P l r -> picks P (x :: l) (x :: r)
| pick_no : forall x l r, ~ P x -> picks P l r -> picks P (x :: l) r.
