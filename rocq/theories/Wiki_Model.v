(** Model of the removal of wiki markup: /repo/gensim/corpora/wikicorpus.py 44-83 (the patterns), 153-181 ([find_interlinks]),
    184-334 ([filter_wiki], [remove_markup], [remove_template], [remove_file]) and 337-363 ([tokenize]).

    [wordc] and [decimal] are \\w and \\d, [lower] is [str.lower], [n2cp] is html.entities.name2codepoint.  Texts are [str] already
    (`to_unicode` does nothing). *)
From Verif Require Import Base Str Text_Model Regex_Model.
Local Open Scope nat_scope.

(** ** remove_template, 268-311

    The loop of 292-307 as a state; [starts] and [ends] are kept reversed. *)
Definition lbrace : N := 123.
Definition rbrace : N := 125.
Record tst : Type := mkT { n_open : nat; n_close : nat; in_t : bool; prev : option N; starts : list nat; ends : list Z }.
Definition t_step (s : tst) (i : nat) (c : N) : tst :=
  let '(op, inside, sts) :=
    if negb (in_t s) && (N.eqb c lbrace && match prev s with Some p => N.eqb p c | None => false end)
    then (1, true, (i - 1) :: starts s) else (n_open s, in_t s, starts s) in
  if inside then
    let '(op, cl) := if N.eqb c lbrace then (S op, n_close s) else if N.eqb c rbrace then (op, S (n_close s)) else (op, n_close s) in
    if op =? cl then mkT 0 0 false (Some c) sts (Z.of_nat i :: ends s) else mkT op cl true (Some c) sts (ends s)
  else mkT op (n_close s) false (Some c) sts (ends s).
Fixpoint t_scan (s : tst) (i : nat) (t : pystr) : tst := match t with [] => s | c :: t' => t_scan (t_step s i c) (S i) t' end.
(** [s[e + 1:start]]; [None] is the end of the text *)
Definition t_piece (s : pystr) (e : Z) (start : option nat) : pystr :=
  let from := Z.to_nat (e + 1) in
  match start with Some j => firstn (j - from) (skipn from s) | None => skipn from s end.
Definition remove_template (s : pystr) : pystr :=
  let f := t_scan (mkT 0 0 false None [] [(-1)%Z]) 0 s in
  concat (map (fun es => t_piece s (fst es) (snd es)) (combine (rev (ends f)) (map Some (rev (starts f)) ++ [None]))).

(** ** The patterns, 44-83 *)
Section Wiki.
Context (wordc decimal : N -> bool) (lower : pystr -> pystr) (n2cp : pystr -> option N).

Definition RE_P0 : re := seq [lit (str "<!--"); lazy any; lit (str "-->")].
Definition element (name : String.string) : re :=
  seq [lit (str "<" ++ str name); Grp 1 (Cat (Chr (fun c => N.eqb c 62 || N.eqb c 32)) (lazy any));
       Grp 2 (Alt (lit (str "</" ++ str name ++ str ">")) (lit (str "/>")))].
Definition RE_P1 : re := element "ref".
(** [$] is the end or the place in front of a newline at the end *)
Definition at_end : re := Look (fun _ a => match a with [] => true | [c] => N.eqb c nl | _ => false end).
Definition ascii_small : re := Chr (fun c => (97 <=? c) && (c <=? 122))%N.
Definition RE_P2 : re :=
  Cat (plus (Grp 1 (seq [ch nl; lit (str "[["); ascii_small; ascii_small; many (Chr (fun c => wordc c || N.eqb c 45)); ch 58;
                         plus (none_of (str ":]")); lit (str "]]")]))) at_end.
Definition RE_P5 : re :=
  seq [ch 91; Grp 1 (plus (Chr wordc)); lit (str "://"); Grp 2 (lazy dot);
       Grp 3 (Alt (Grp 4 (Cat (ch 32) (Grp 5 (lazy dot)))) (Grp 6 Eps)); ch 93].
Definition no_brackets : re := none_of (str "[]").
Definition RE_P6 : re := seq [ch 91; Grp 1 (many no_brackets); ch 124; Grp 2 (many no_brackets); ch 93].
Definition RE_P9 : re := element "nowiki".
Definition RE_P10 : re := element "math".
Definition RE_P11 : re := seq [ch 60; Grp 1 (lazy any); ch 62].
Definition not_digit_ahead : re := Look (fun _ a => match a with c :: _ => negb (decimal c) | [] => true end).
Definition nl_ahead : re := Look (fun _ a => match a with c :: _ => N.eqb c nl | [] => false end).
Definition RE_P12 : re :=
  seq [alts [lit (str "{|"); Cat (lit (str "|-")) not_digit_ahead; lit (str "|}")]; lazy dot; nl_ahead].
(** [(?<=(\n[ ])|(\n\n)|([ ]{2})|(.\n)|(.\t))]; the text behind is reversed *)
Definition cell_behind (b : pystr) : bool :=
  match b with
  | y :: x :: _ =>
    N.eqb x nl && N.eqb y 32 || N.eqb x nl && N.eqb y nl || N.eqb x 32 && N.eqb y 32 ||
    negb (N.eqb x nl) && N.eqb y nl || negb (N.eqb x nl) && N.eqb y 9
  | _ => false
  end.
Definition RE_P13 : re :=
  seq [Look (fun b _ => cell_behind b); Chr (fun c => N.eqb c 124 || N.eqb c 33);
       many (Cat (lazy (none_of (str "[]" ++ [nl]))) (ch 124))].
Definition RE_P14 : re := seq [lit (str "[[Category:"); many no_brackets; lit (str "]]")].
Definition RE_P15 : re :=
  seq [lit (str "[["); Grp 1 (Alt (seq [Chr (fun c => N.eqb c 102 || N.eqb c 70); lit (str "ile:")])
                               (seq [Chr (fun c => N.eqb c 105 || N.eqb c 73); lit (str "mage")]));
       many (none_of (str "]")); Grp 2 (lit (str "]]"))].
Definition RE_P16 : re := seq [lit (str "[["); Grp 1 (lazy dot); lit (str "]]")].
Definition attributes (scope : bool) : re :=
  alts ([lit (str "bgcolor"); seq [upto 1 (Chr decimal); opt (ch 32); lit (str "colspan")]; lit (str "rowspan"); lit (str "style=");
         lit (str "class="); lit (str "align=")] ++ if scope then [lit (str "scope=")] else []).
Definition at_start : re := Look (fun b _ => match b with [] => true | _ => false end).
Definition RE_P17 : re :=
  Alt (seq [ch nl; upto 4 dot; attributes true; many dot]) (seq [at_start; upto 2 dot; attributes false; many dot]).

(** ** remove_file, 314-334 *)
Definition caption (g : pystr) : pystr := last (split_on 124%N (firstn (length g - 2) g)) [].
Definition remove_file (s : pystr) : pystr :=
  fold_left (fun s g => replace1 (fst g) (caption (fst g)) s) (finditer RE_P15 s) s.

(** ** remove_markup, 209-265 *)
Definition gone (x : st) : pystr := [].
Definition newline (x : st) : pystr := [nl].
Definition markup_pass (simplify : bool) (t : pystr) : pystr :=
  let t := sub RE_P0 gone t in
  let t := sub RE_P1 gone t in
  let t := sub RE_P9 gone t in
  let t := sub RE_P10 gone t in
  let t := sub RE_P11 gone t in
  let t := sub RE_P14 gone t in
  let t := sub RE_P5 (group 3) t in
  let t := if simplify then sub RE_P6 (group 2) t else t in
  let t := replace (str "!!") (nl :: str "|") t in
  let t := replace (str "|-||") (nl :: str "|") t in
  let t := sub RE_P12 newline t in
  let t := replace (str "|||") (str "|" ++ nl :: str "|") t in
  let t := replace (str "||") (nl :: str "|") t in
  let t := sub RE_P13 newline t in
  let t := sub RE_P17 newline t in
  replace (str "[]") [] t.
Fixpoint markup_loop (more : nat) (simplify : bool) (t : pystr) : pystr :=
  let t' := markup_pass simplify t in
  if eqb t t' then t' else match more with 0 => t' | S n => markup_loop n simplify t' end.
Definition remove_markup (promote simplify : bool) (t : pystr) : pystr :=
  let t := sub RE_P2 gone t in
  let t := remove_file (remove_template t) in
  let t := markup_loop 2 simplify t in
  if promote then replace (str "]") [] (replace (str "[") [] t) else t.

(** ** filter_wiki, 184-206, and find_interlinks, 153-181 *)
Definition filter_wiki (promote simplify : bool) (raw : pystr) : pystr := remove_markup promote simplify (decode_htmlentities wordc n2cp raw).
Definition interlink (raw : pystr) : pystr * pystr :=
  match split_on 124%N raw with
  | title :: text :: _ => (title, text)
  | [title] => (title, title)
  | [] => ([], [])  (* no string splits into nothing *)
  end.
Definition find_interlinks (raw : pystr) : list (pystr * pystr) :=
  filter (fun ij => negb (memb 91%N (fst ij)) && negb (memb 93%N (fst ij)))
         (map (fun g => interlink (group 1 (snd g))) (finditer RE_P16 (filter_wiki false false raw))).

(** ** tokenize, 337-363 *)
Definition tokenize (content : pystr) (token_min_len token_max_len : Z) (low : bool) : list pystr :=
  filter (fun t => (token_min_len <=? Z.of_nat (length t))%Z && (Z.of_nat (length t) <=? token_max_len)%Z && negb (begins (str "_") t))
         (simple_tokenize wordc decimal (if low then lower content else content)).
End Wiki.
