(** What the removal of wiki markup ought to do (property C100), without the patterns and the loops of the model. *)
From Verif Require Import Base Str Tfidf_Spec.
Local Open Scope nat_scope.

Definition infix (g w : pystr) : Prop := exists u v, w = u ++ g ++ v.
(** Somewhere in [s] stands a [<], and further on a [>]. *)
Definition tagged (s : pystr) : Prop := subseq [60; 62]%N s.

(** ** Templates *)
Definition count (c : N) (s : pystr) : nat := length (filter (N.eqb c) s).
Definition braces : pystr := str "{{".
(** A template goes from "{{" to the place where, for the first time, as many braces are closed as are open. *)
Definition still_open (b : pystr) : Prop := count 125 b < 2 + count 123 b.
Definition template (t : pystr) : Prop := exists b, t = braces ++ b /\ count 125 b = 2 + count 123 b /\
  forall p q, b = p ++ q -> q <> [] -> still_open p.
Definition unclosed (t : pystr) : Prop := exists b, t = braces ++ b /\ forall p q, b = p ++ q -> still_open p.
Definition no_template (s : pystr) : Prop := ~ infix braces s.
Inductive cleaned : pystr -> pystr -> Prop :=
| cl_plain : forall s, no_template s -> cleaned s s
| cl_template : forall p t r u, no_template (p ++ [123]%N) -> template t -> cleaned r u -> cleaned (p ++ t ++ r) (p ++ u)
| cl_unclosed : forall p t, no_template (p ++ [123]%N) -> unclosed t -> cleaned (p ++ t) p.

(** ** Files *)
Definition file_words : list pystr := [str "[[File:"; str "[[file:"; str "[[Image"; str "[[image"].
Record filelink : Type := mkFile { fword : pystr; fbody : pystr; fcaption : pystr }.
Definition file_source (f : filelink) : pystr := fword f ++ fbody f ++ str "|" ++ fcaption f ++ str "]]".
Definition good_file (f : filelink) : Prop := In (fword f) file_words /\ ~ In 93%N (fbody f) /\ Forall (fun c => ~ In c (str "[]|")) (fcaption f).
(** Text between two files: no file begins there, and every bracket that is opened is closed again. *)
Definition settled (t : pystr) : Prop := (forall w, In w file_words -> ~ infix w t) /\ (forall a b, t = a ++ 91%N :: b -> In 93%N b).

(** ** Ordinary markup *)
Inductive seg : Type :=
| Txt (t : pystr)
| Lnk (title shown : pystr)
| Bare (title : pystr)
| Cmt (c : pystr)
| Ref (c : pystr)
| Tag (c : pystr).
Definition source (s : seg) : pystr :=
  match s with
  | Txt t => t
  | Lnk a b => str "[[" ++ a ++ str "|" ++ b ++ str "]]"
  | Bare a => str "[[" ++ a ++ str "]]"
  | Cmt c => str "<!--" ++ c ++ str "-->"
  | Ref c => str "<ref>" ++ c ++ str "</ref>"
  | Tag c => str "<" ++ c ++ str ">"
  end.
Definition shown_text (s : seg) : pystr := match s with Txt t => t | Lnk _ b => b | Bare a => a | _ => [] end.
Definition ordinary (c : N) : Prop := ~ In c (str "<>[]|{!&").
Definition name (a : pystr) : Prop := a <> [] /\ Forall (fun c => ordinary c /\ c <> 58%N) a.  (* no ':' *)
Definition is_element (n c : pystr) : Prop := c = n \/ exists d, c = n ++ str " " ++ d.
Definition good_seg (s : seg) : Prop :=
  match s with
  | Txt t => Forall ordinary t
  | Lnk a b => name a /\ name b /\ (forall w, In w file_words -> ~ exists d, str "[[" ++ a = w ++ d)
  | Bare a => name a /\ (forall w, In w file_words -> ~ exists d, str "[[" ++ a = w ++ d)
  | Cmt c | Ref c => Forall ordinary c
  | Tag c => Forall ordinary c /\ (~ exists d, c = str "!--" ++ d) /\
             forall n, In n (map str ["ref"; "nowiki"; "math"]%string) -> ~ is_element n c
  end.
(** Words that make a line look like a part of a table *)
Definition attribute_words : list pystr := map str ["bgcolor"; "colspan"; "rowspan"; "style="; "class="; "align="; "scope="]%string.
Definition no_attribute (s : pystr) : Prop := forall w, In w attribute_words -> ~ infix w s.
(** The text when comments, footnotes and tags are gone and links are reduced to what they show, still in brackets *)
Definition bracketed (s : seg) : pystr := match s with Txt t => t | Lnk _ b => str "[" ++ b ++ str "]" | Bare a => str "[[" ++ a ++ str "]]" | _ => [] end.
(** ... and with whole links *)
Definition linked (s : seg) : pystr := match s with Txt _ | Lnk _ _ | Bare _ => source s | _ => [] end.
Definition on_one_line (a : pystr) : Prop := ~ In 10%N a.
Definition good_link (s : seg) : Prop :=
  match s with
  | Lnk a b => on_one_line a /\ on_one_line b /\ ~ In (last a 0%N) (str " " ++ [9%N]) /\ ~ In (hd 0%N b) (str "-}")
  | Bare a => on_one_line a
  | _ => True
  end.
Definition links_of (s : seg) : list (pystr * pystr) := match s with Lnk a b => [(a, b)] | Bare a => [(a, a)] | _ => [] end.

(** ** Text without markup *)
Definition calm (s : pystr) : Prop := forall a c b, s = a ++ c :: 33%N :: b -> ~ In c (10 :: 9 :: str " !")%N.
