(** Specification: the Porter algorithm as rules on words. *)
From Verif Require Import Base Str.
Local Open Scope nat_scope.

Definition vowel (c : N) : bool := existsb (N.eqb c) (str "aeiou").
(** Consonants (true) and vowels (false) of a word: y is a consonant at the start and after a vowel. *)
Fixpoint shape_from (prev : bool) (w : pystr) : list bool :=
  match w with
  | [] => []
  | c :: w' => let k := if vowel c then false else if N.eqb c 121 then negb prev else true in k :: shape_from k w'
  end.
Definition shape (w : pystr) : list bool := shape_from false w.
(** The measure: how often a consonant follows a vowel. *)
Fixpoint vc (l : list bool) : nat :=
  match l with
  | a :: ((b :: _) as l') => (if negb a && b then 1 else 0) + vc l'
  | _ => 0
  end.
Definition measure (w : pystr) : nat := vc (shape w).
Definition has_vowel (w : pystr) : bool := existsb negb (shape w).
Definition double_cons (w : pystr) : bool :=
  match rev w, rev (shape w) with
  | a :: b :: _, true :: _ => N.eqb a b
  | _, _ => false
  end.
Definition short_end (w : pystr) : bool :=
  match rev w, rev (shape w) with
  | c :: _, true :: false :: true :: _ => negb (existsb (N.eqb c) (str "wxy"))
  | _, _ => false
  end.
(** The word without the suffix [s]. *)
Definition chop (s w : pystr) : option pystr :=
  if eq_dec (skipn (length w - length s) w) s then Some (firstn (length w - length s) w) else None.

(** Plurals. *)
Definition rule1a (w : pystr) : pystr :=
  match chop (str "sses") w with Some u => u ++ str "ss" | None =>
  match chop (str "ies") w with Some u => u ++ str "i" | None =>
  match chop (str "ss") w with Some u => w | None =>
  match chop (str "s") w with Some u => u | None => w
  end end end end.
(** After -ed or -ing was removed. *)
Definition mend (u : pystr) : pystr :=
  match chop (str "at") u, chop (str "bl") u, chop (str "iz") u with
  | None, None, None =>
    if double_cons u then (if existsb (N.eqb (last u 0%N)) (str "lsz") then u else removelast u)
    else if (measure u =? 1) && short_end u then u ++ str "e" else u
  | _, _, _ => u ++ str "e"
  end.
Definition rule1b (w : pystr) : pystr :=
  match chop (str "eed") w with Some u => if 0 <? measure u then u ++ str "ee" else w | None =>
  match chop (str "ed") w with Some u => if has_vowel u then mend u else w | None =>
  match chop (str "ing") w with Some u => if has_vowel u then mend u else w | None => w
  end end end.
Definition rule1c (w : pystr) : pystr :=
  match chop (str "y") w with Some u => if has_vowel u then u ++ str "i" else w | None => w end.

Fixpoint first_match (rules : list (pystr * pystr)) (w : pystr) : option (pystr * pystr) :=
  match rules with
  | [] => None
  | (s, r) :: rules' => match chop s w with Some u => Some (u, r) | None => first_match rules' w end
  end.
Definition rewrite_rule (rules : list (pystr * pystr)) (w : pystr) : pystr :=
  match first_match rules w with
  | Some (u, r) => if 0 <? measure u then u ++ r else w
  | None => w
  end.
Definition rules2 : list (pystr * pystr) :=
  [ (str "ational", str "ate"); (str "tional", str "tion"); (str "enci", str "ence"); (str "anci", str "ance"); (str "izer", str "ize");
    (str "bli", str "ble"); (str "alli", str "al"); (str "entli", str "ent"); (str "eli", str "e"); (str "ousli", str "ous");
    (str "ization", str "ize"); (str "ation", str "ate"); (str "ator", str "ate"); (str "alism", str "al"); (str "iveness", str "ive");
    (str "fulness", str "ful"); (str "ousness", str "ous"); (str "aliti", str "al"); (str "iviti", str "ive"); (str "biliti", str "ble"); (str "logi", str "log") ].
Definition rules3 : list (pystr * pystr) :=
  [ (str "icate", str "ic"); (str "ative", str ""); (str "alize", str "al"); (str "iciti", str "ic"); (str "ical", str "ic"); (str "ful", str ""); (str "ness", str "") ].
Definition rules4 : list (pystr * pystr) :=
  map (fun s => (s, [])) [ str "al"; str "ance"; str "ence"; str "er"; str "ic"; str "able"; str "ible"; str "ant"; str "ement"; str "ment"; str "ent";
    str "ion"; str "ou"; str "ism"; str "ate"; str "iti"; str "ous"; str "ive"; str "ize" ].
(** -ion needs an s or t before it. *)
Definition rule4 (w : pystr) : pystr :=
  match first_match rules4 w with
  | Some (u, _) => if (match chop (str "ion") w with Some _ => existsb (N.eqb (last u 0%N)) (str "st") | None => true end) && (1 <? measure u) then u else w
  | None => w
  end.
Definition rule5a (w : pystr) : pystr :=
  match chop (str "e") w with
  | Some u => if (1 <? measure u) || (measure u =? 1) && negb (short_end u) then u else w
  | None => w
  end.
Definition rule5b (w : pystr) : pystr := if (1 <? measure w) && match chop (str "ll") w with Some _ => true | None => false end then removelast w else w.

Definition porter (w : pystr) : pystr :=
  if length w <=? 2 then w else rule5b (rule5a (rule4 (rewrite_rule rules3 (rewrite_rule rules2 (rule1c (rule1b (rule1a w))))))).

(** Lengths of the runs of y that end at the letters of a word. *)
Fixpoint runs (n : nat) (w : pystr) : list nat :=
  match w with
  | [] => []
  | c :: w' => let n' := if N.eqb c 121 then S n else 0 in n' :: runs n' w'
  end.
Definition runs_below (d : nat) (w : pystr) : Prop := Forall (fun r => r < d) (runs 0 w).
