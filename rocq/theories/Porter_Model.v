(** Model of the Porter stemmer: /repo/gensim/parsing/porter.py.

    Strings are lists of code points, indexed as in Python: negative indices count from the end and an index out of range
    raises.  [depth] is the number of nested calls of [_cons] that the interpreter allows; one more raises a RecursionError.
    [lower] is [str.lower].  Elif chains over suffixes are written as lists of (suffix, replacement), the outer elif chain over
    the letter [ch] as a list of (letter, rules); nothing else is changed. *)
From Verif Require Import Base Str.
Local Open Scope Z_scope.

Definition pylen (b : pystr) : Z := Z.of_nat (length b).
Definition pyget (b : pystr) (i : Z) : result N :=
  let i' := if i <? 0 then i + pylen b else i in
  if i' <? 0 then Err IndexError else match nth_error b (Z.to_nat i') with Some c => Ok c | None => Err IndexError end.
(** [b[s:e]] *)
Definition clamp (b : pystr) (i : Z) : nat := Z.to_nat (Z.min (pylen b) (Z.max 0 (if i <? 0 then i + pylen b else i))).
Definition pyslice (b : pystr) (s e : Z) : pystr := firstn (clamp b e - clamp b s) (skipn (clamp b s) b).
Definition pyprefix (b : pystr) (e : Z) : pystr := firstn (clamp b e) b.

Notation chr_y := 121%N.
Definition ch_in (c : N) (s : pystr) : bool := existsb (N.eqb c) s.

Record pstate : Type := mkP { pb : pystr; pk : Z; pj : Z }.
Definition set_k (st : pstate) (k : Z) : pstate := mkP (pb st) k (pj st).
Definition set_j (st : pstate) (j : Z) : pstate := mkP (pb st) (pk st) j.

Section Stem.
Variable depth : nat.
Variable lower : pystr -> pystr.

(** 51-80 *)
Fixpoint cons (d : nat) (b : pystr) (i : Z) : result bool :=
  match d with
  | O => Err RuntimeErr
  | S d' =>
    let* ch := pyget b i in
    if ch_in ch (str "aeiou") then Ok false
    else if N.eqb ch chr_y then (if i =? 0 then Ok true else let* c := cons d' b (i - 1) in Ok (negb c))
    else Ok true
  end.
(** 108-134.  [scan want]: the loop that looks for the next [i <= j] with [_cons(i) == want]. *)
Fixpoint scan (fuel : nat) (want : bool) (b : pystr) (j i : Z) : result (option Z) :=
  match fuel with
  | O => Err AssertionErr
  | S fuel' => if j <? i then Ok None else let* c := cons depth b i in if Bool.eqb c want then Ok (Some i) else scan fuel' want b j (i + 1)
  end.
Fixpoint m_loop (fuel : nat) (b : pystr) (j i n : Z) : result Z :=
  match fuel with
  | O => Err AssertionErr
  | S fuel' =>
    let* r := scan (S (length b)) true b j i in
    match r with
    | None => Ok n
    | Some i =>
      let* r := scan (S (length b)) false b j (i + 1) in
      match r with
      | None => Ok (n + 1)
      | Some i => m_loop fuel' b j (i + 1) (n + 1)
      end
    end
  end.
Definition measure_ (st : pstate) : result Z :=
  let* r := scan (S (length (pb st))) false (pb st) (pj st) 0 in
  match r with
  | None => Ok 0
  | Some i => m_loop (S (length (pb st))) (pb st) (pj st) (i + 1) 0
  end.
(** 158: [all] stops at the first vowel. *)
Fixpoint all_cons (is : list nat) (b : pystr) : result bool :=
  match is with
  | [] => Ok true
  | i :: is' => let* c := cons depth b (Z.of_nat i) in if c then all_cons is' b else Ok false
  end.
Definition vowelinstem (st : pstate) : result bool := let* a := all_cons (seq 0 (Z.to_nat (pj st + 1))) (pb st) in Ok (negb a).
(** 187 *)
Definition doublec (b : pystr) (j : Z) : result bool :=
  if 0 <? j then
    let* x := pyget b j in let* y := pyget b (j - 1) in
    if N.eqb x y then cons depth b j else Ok false
  else Ok false.
(** 222-224 *)
Definition cvc (b : pystr) (i : Z) : result bool :=
  if i <? 2 then Ok false else
  let* c0 := cons depth b i in if negb c0 then Ok false else
  let* c1 := cons depth b (i - 1) in if c1 then Ok false else
  let* c2 := cons depth b (i - 2) in if negb c2 then Ok false else
  let* x := pyget b i in Ok (negb (ch_in x (str "wxy"))).
(** 248-256 *)
Definition ends (s : pystr) (st : pstate) : result (bool * pstate) :=
  let* c := pyget (pb st) (pk st) in
  if negb (N.eqb (last s 0%N) c) then Ok (false, st) else
  let length := pylen s in
  if pk st + 1 <? length then Ok (false, st) else
  if negb (eqb (pyslice (pb st) (pk st - length + 1) (pk st + 1)) s) then Ok (false, st) else
  Ok (true, set_j st (pk st - length)).
(** 266-267 *)
Definition setto (s : pystr) (st : pstate) : pstate :=
  let b := pyprefix (pb st) (pj st + 1) ++ s in mkP b (pylen b - 1) (pj st).
(** 269-271 *)
Definition r_ (s : pystr) (st : pstate) : result pstate := let* m := measure_ st in Ok (if 0 <? m then setto s st else st).

(** 292-316 *)
Definition step1ab (st : pstate) : result pstate :=
  let* c := pyget (pb st) (pk st) in
  let* st :=
    if N.eqb c 115 then
      let* es := ends (str "sses") st in if fst es then Ok (set_k (snd es) (pk (snd es) - 2)) else
      let* es := ends (str "ies") (snd es) in if fst es then Ok (setto (str "i") (snd es)) else
      let st := snd es in
      let* c' := pyget (pb st) (pk st - 1) in
      Ok (if N.eqb c' 115 then st else set_k st (pk st - 1))
    else Ok st in
  let* es := ends (str "eed") st in
  if fst es then let st := snd es in let* m := measure_ st in Ok (if 0 <? m then set_k st (pk st - 1) else st)
  else
    let* es := ends (str "ed") (snd es) in
    let* es := if fst es then Ok es else ends (str "ing") (snd es) in
    let st := snd es in
    if negb (fst es) then Ok st else
    let* v := vowelinstem st in
    if negb v then Ok st else
    let st := set_k st (pj st) in
    let* es := ends (str "at") st in if fst es then Ok (setto (str "ate") (snd es)) else
    let* es := ends (str "bl") (snd es) in if fst es then Ok (setto (str "ble") (snd es)) else
    let* es := ends (str "iz") (snd es) in if fst es then Ok (setto (str "ize") (snd es)) else
    let st := snd es in
    let* d := doublec (pb st) (pk st) in
    if d then let* c := pyget (pb st) (pk st - 1) in Ok (if ch_in c (str "lsz") then st else set_k st (pk st - 1))
    else
      let* m := measure_ st in
      if m =? 1 then let* c := cvc (pb st) (pk st) in Ok (if c then setto (str "e") st else st) else Ok st.
(** 318-321 *)
Definition step1c (st : pstate) : result pstate :=
  let* es := ends (str "y") st in
  let st := snd es in
  if fst es then let* v := vowelinstem st in Ok (if v then mkP (pyprefix (pb st) (pk st) ++ str "i") (pk st) (pj st) else st) else Ok st.

Fixpoint first_rule (rules : list (pystr * pystr)) (st : pstate) : result pstate :=
  match rules with
  | [] => Ok st
  | (s, r) :: rules' => let* es := ends s st in if fst es then r_ r (snd es) else first_rule rules' (snd es)
  end.
Fixpoint by_letter {A} (ch : N) (table : list (N * list A)) : list A :=
  match table with
  | [] => []
  | (c, rules) :: table' => if N.eqb ch c then rules else by_letter ch table'
  end.
(** 331-386 *)
Definition table2 : list (N * list (pystr * pystr)) :=
  [ (97%N, [(str "ational", str "ate"); (str "tional", str "tion")]);
    (99%N, [(str "enci", str "ence"); (str "anci", str "ance")]);
    (101%N, [(str "izer", str "ize")]);
    (108%N, [(str "bli", str "ble"); (str "alli", str "al"); (str "entli", str "ent"); (str "eli", str "e"); (str "ousli", str "ous")]);
    (111%N, [(str "ization", str "ize"); (str "ation", str "ate"); (str "ator", str "ate")]);
    (115%N, [(str "alism", str "al"); (str "iveness", str "ive"); (str "fulness", str "ful"); (str "ousness", str "ous")]);
    (116%N, [(str "aliti", str "al"); (str "iviti", str "ive"); (str "biliti", str "ble")]);
    (103%N, [(str "logi", str "log")]) ].
Definition step2 (st : pstate) : result pstate := let* ch := pyget (pb st) (pk st - 1) in first_rule (by_letter ch table2) st.
(** 388-408 *)
Definition table3 : list (N * list (pystr * pystr)) :=
  [ (101%N, [(str "icate", str "ic"); (str "ative", str ""); (str "alize", str "al")]);
    (105%N, [(str "iciti", str "ic")]);
    (108%N, [(str "ical", str "ic"); (str "ful", str "")]);
    (115%N, [(str "ness", str "")]) ].
Definition step3 (st : pstate) : result pstate := let* ch := pyget (pb st) (pk st) in first_rule (by_letter ch table3) st.
(** 410-468: the letters before a suffix that it needs, [] for none. *)
Definition table4 : list (N * list (pystr * pystr)) :=
  [ (97%N, [(str "al", [])]);
    (99%N, [(str "ance", []); (str "ence", [])]);
    (101%N, [(str "er", [])]);
    (105%N, [(str "ic", [])]);
    (108%N, [(str "able", []); (str "ible", [])]);
    (110%N, [(str "ant", []); (str "ement", []); (str "ment", []); (str "ent", [])]);
    (111%N, [(str "ion", str "st"); (str "ou", [])]);
    (115%N, [(str "ism", [])]);
    (116%N, [(str "ate", []); (str "iti", [])]);
    (117%N, [(str "ous", [])]);
    (118%N, [(str "ive", [])]);
    (122%N, [(str "ize", [])]) ].
Fixpoint any_rule (rules : list (pystr * pystr)) (st : pstate) : result (bool * pstate) :=
  match rules with
  | [] => Ok (false, st)
  | (s, before) :: rules' =>
    let* es := ends s st in
    let st := snd es in
    if fst es then
      match before with
      | [] => Ok (true, st)
      | _ => let* c := pyget (pb st) (pj st) in if ch_in c before then Ok (true, st) else any_rule rules' st
      end
    else any_rule rules' st
  end.
Definition step4 (st : pstate) : result pstate :=
  let* ch := pyget (pb st) (pk st - 1) in
  let* es := any_rule (by_letter ch table4) st in
  let st := snd es in
  if fst es then let* m := measure_ st in Ok (if 1 <? m then set_k st (pj st) else st) else Ok st.
(** 470-478 *)
Definition step5 (st : pstate) : result pstate :=
  let k := pk st in
  let st := set_j st k in
  let* c := pyget (pb st) k in
  let* st :=
    if N.eqb c 101 then
      let* a := measure_ st in
      if 1 <? a then Ok (set_k st (pk st - 1))
      else if a =? 1 then let* c := cvc (pb st) (k - 1) in Ok (if c then st else set_k st (pk st - 1))
      else Ok st
    else Ok st in
  let* c := pyget (pb st) (pk st) in
  if N.eqb c 108 then
    let* d := doublec (pb st) (pk st) in
    if d then let* m := measure_ st in Ok (if 1 <? m then set_k st (pk st - 1) else st) else Ok st
  else Ok st.

(** 503-527.  The stemmer keeps [b], [k] and [j] from word to word. *)
Definition stem (st : pstate) (w : pystr) : result (pystr * pstate) :=
  let w := lower w in
  let k := pylen w - 1 in
  if k <=? 1 then Ok (w, st) else
  let* st := step1ab (mkP w k (pj st)) in
  let* st := step1c st in
  let* st := step2 st in
  let* st := step3 st in
  let* st := step4 st in
  let* st := step5 st in
  Ok (pyprefix (pb st) (pk st + 1), st).
(** 552 *)
Fixpoint stem_all (ws : list pystr) (st : pstate) : result (list pystr * pstate) :=
  match ws with
  | [] => Ok ([], st)
  | w :: ws' => let* r := stem st w in let* rs := stem_all ws' (snd r) in Ok (fst r :: fst rs, snd rs)
  end.
Definition stem_sentence (st : pstate) (txt : pystr) : result (pystr * pstate) :=
  let* r := stem_all (words is_space txt) st in Ok (join (str " ") (fst r), snd r).
(** 576 *)
Fixpoint stem_documents (docs : list pystr) (st : pstate) : result (list pystr * pstate) :=
  match docs with
  | [] => Ok ([], st)
  | d :: docs' => let* r := stem_sentence st d in let* rs := stem_documents docs' (snd r) in Ok (fst r :: fst rs, snd rs)
  end.
End Stem.
(** 46-49 *)
Definition stemmer0 : pstate := mkP [] 0 0.
