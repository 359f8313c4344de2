(** Model of the text cleaning functions: /repo/gensim/parsing/preprocessing.py 22-393 and /repo/gensim/utils.py 39-40
    (`PAT_ALPHABETIC`, `RE_HTML_ENTITY`), 213-301 (`tokenize`, `simple_tokenize`, `simple_preprocess`), 1057-1128 (`safe_unichr`,
    `decode_htmlentities`).

    The patterns are modelled literally, by a matcher with Python's rules: a pattern is a sequence of character classes with a
    least and a greatest number of repetitions, each a group; a repetition takes as many characters as it can and gives them back
    one by one while the rest does not match; `sub` and `finditer` take the leftmost match and go on behind it.  All patterns here
    match at least one character.

    Simplifications: texts are [str] already (`to_unicode` does nothing).  [wordc] and [decimal] are \\w and \\d, [lower] is
    [str.lower], [n2cp] is html.entities.name2codepoint; \\s is what [split] splits at.  [int] reads ASCII digits, as decimal
    digits of other scripts are not modelled. *)
From Coq Require Import ZifyBool ZifyNat ZifyN.
From Verif Require Import Base Str Porter_Model.
Local Open Scope nat_scope.

(** ** Patterns *)
Record item : Type := mkItem { icls : N -> bool; ilo : nat; ihi : option nat }.
Fixpoint run (f : N -> bool) (hi : option nat) (s : pystr) : nat :=
  match hi, s with
  | Some 0, _ | _, [] => 0
  | Some (S h), c :: s' => if f c then S (run f (Some h) s') else 0
  | None, c :: s' => if f c then S (run f None s') else 0
  end.
Fixpoint pmatch (p : list item) (s : pystr) : option (list pystr) :=
  match p with
  | [] => Some []
  | i :: p' =>
    (fix try (k : nat) : option (list pystr) :=
       if k <? ilo i then None else
       match pmatch p' (skipn k s) with
       | Some gs => Some (firstn k s :: gs)
       | None => match k with 0 => None | S k' => try k' end
       end) (run (icls i) (ihi i) s)
  end.
(** [skip] characters of the last match are still to be passed over. *)
Fixpoint rsub_from (p : list item) (rep : list pystr -> pystr) (skip : nat) (s : pystr) : pystr :=
  match s with
  | [] => []
  | c :: s' =>
    match skip with
    | S k => rsub_from p rep k s'
    | 0 => match pmatch p (c :: s') with
           | Some gs => rep gs ++ rsub_from p rep (length (concat gs) - 1) s'
           | None => c :: rsub_from p rep 0 s'
           end
    end
  end.
Definition rsub (p : list item) (rep : list pystr -> pystr) (s : pystr) : pystr := rsub_from p rep 0 s.
Fixpoint finditer_from (p : list item) (skip : nat) (s : pystr) : list pystr :=
  match s with
  | [] => []
  | c :: s' =>
    match skip with
    | S k => finditer_from p k s'
    | 0 => match pmatch p (c :: s') with
           | Some gs => concat gs :: finditer_from p (length (concat gs) - 1) s'
           | None => finditer_from p 0 s'
           end
    end
  end.
Definition finditer (p : list item) (s : pystr) : list pystr := finditer_from p 0 s.

Definition one (f : N -> bool) : item := mkItem f 1 (Some 1).
Definition plus (f : N -> bool) : item := mkItem f 1 None.
Definition maybe (f : N -> bool) : item := mkItem f 0 (Some 1).
Definition is (c d : N) : bool := N.eqb d c.

(** preprocessing.py 62-68 *)
Definition punct (c : N) : bool := ((33 <=? c) && (c <=? 47) || (58 <=? c) && (c <=? 64) || (91 <=? c) && (c <=? 96) || (123 <=? c) && (c <=? 126))%N.
Definition letter (c : N) : bool := ((97 <=? c) && (c <=? 122))%N.
Definition RE_PUNCT : list item := [plus punct].
Definition RE_TAGS : list item := [one (is 60%N); plus (fun c => negb (is 62%N c)); one (is 62%N)].
Definition RE_NUMERIC : list item := [plus is_digit].
Definition RE_AL_NUM : list item := [plus letter; plus is_digit].
Definition RE_NUM_AL : list item := [plus is_digit; plus letter].
Definition RE_WHITESPACE : list item := [plus is_space].

(** preprocessing.py 30-59 *)
Local Open Scope string_scope.
Definition STOPWORDS : list pystr := map str [
  "all"; "six"; "just"; "less"; "being"; "indeed"; "over"; "move"; "anyway"; "four"; "not"; "own"; "through"; "using"; "fifty";
  "where"; "mill"; "only"; "find"; "before"; "one"; "whose"; "system"; "how"; "somewhere"; "much"; "thick"; "show"; "had";
  "enough"; "should"; "to"; "must"; "whom"; "seeming"; "yourselves"; "under"; "ours"; "two"; "has"; "might"; "thereafter";
  "latterly"; "do"; "them"; "his"; "around"; "than"; "get"; "very"; "de"; "none"; "cannot"; "every"; "un"; "they"; "front";
  "during"; "thus"; "now"; "him"; "nor"; "name"; "regarding"; "several"; "hereafter"; "did"; "always"; "who"; "didn";
  "whither"; "this"; "someone"; "either"; "each"; "become"; "thereupon"; "sometime"; "side"; "towards"; "therein"; "twelve";
  "because"; "often"; "ten"; "our"; "doing"; "km"; "eg"; "some"; "back"; "used"; "up"; "go"; "namely"; "computer"; "are";
  "further"; "beyond"; "ourselves"; "yet"; "out"; "even"; "will"; "what"; "still"; "for"; "bottom"; "mine"; "since"; "please";
  "forty"; "per"; "its"; "everything"; "behind"; "does"; "various"; "above"; "between"; "it"; "neither"; "seemed"; "ever";
  "across"; "she"; "somehow"; "be"; "we"; "full"; "never"; "sixty"; "however"; "here"; "otherwise"; "were"; "whereupon";
  "nowhere"; "although"; "found"; "alone"; "re"; "along"; "quite"; "fifteen"; "by"; "both"; "about"; "last"; "would";
  "anything"; "via"; "many"; "could"; "thence"; "put"; "against"; "keep"; "etc"; "amount"; "became"; "ltd"; "hence"; "onto";
  "or"; "con"; "among"; "already"; "co"; "afterwards"; "formerly"; "within"; "seems"; "into"; "others"; "while"; "whatever";
  "except"; "down"; "hers"; "everyone"; "done"; "least"; "another"; "whoever"; "moreover"; "couldnt"; "throughout"; "anyhow";
  "yourself"; "three"; "from"; "her"; "few"; "together"; "top"; "there"; "due"; "been"; "next"; "anyone"; "eleven"; "cry";
  "call"; "therefore"; "interest"; "then"; "thru"; "themselves"; "hundred"; "really"; "sincere"; "empty"; "more"; "himself";
  "elsewhere"; "mostly"; "on"; "fire"; "am"; "becoming"; "hereby"; "amongst"; "else"; "part"; "everywhere"; "too"; "kg";
  "herself"; "former"; "those"; "he"; "me"; "myself"; "made"; "twenty"; "these"; "was"; "bill"; "cant"; "us"; "until";
  "besides"; "nevertheless"; "below"; "anywhere"; "nine"; "can"; "whether"; "of"; "your"; "toward"; "my"; "say"; "something";
  "and"; "whereafter"; "whenever"; "give"; "almost"; "wherever"; "is"; "describe"; "beforehand"; "herein"; "doesn"; "an"; "as";
  "itself"; "at"; "have"; "in"; "seem"; "whence"; "ie"; "any"; "fill"; "again"; "hasnt"; "inc"; "thereby"; "thin"; "no";
  "perhaps"; "latter"; "meanwhile"; "when"; "detail"; "same"; "wherein"; "beside"; "also"; "that"; "other"; "take"; "which";
  "becomes"; "you"; "if"; "nobody"; "unless"; "whereas"; "see"; "though"; "may"; "after"; "upon"; "most"; "hereupon"; "eight";
  "but"; "serious"; "nothing"; "such"; "why"; "off"; "a"; "don"; "whereby"; "third"; "i"; "whole"; "noone"; "sometimes";
  "well"; "amoungst"; "yours"; "their"; "rather"; "without"; "so"; "five"; "the"; "first"; "with"; "make"; "once"].
Local Close Scope string_scope.

Section Text.
Context (wordc decimal : N -> bool) (lower : pystr -> pystr) (n2cp : pystr -> option N) (depth : nat).

Definition RE_NONALPHA : list item := [one (fun c => negb (wordc c))].
(** utils.py 39-40 *)
Definition PAT_ALPHABETIC : list item := [plus (fun c => negb (decimal c) && wordc c)].
Definition RE_HTML_ENTITY : list item :=
  [one (is 38%N); maybe (is 35%N); maybe (fun c => is 120%N c || is 88%N c); mkItem wordc 1 (Some 8); one (is 59%N)].

(** preprocessing.py 92-93, 117-118, 145-146, 174-175, 199-200, 228-229, 254-255, 279-281 *)
Definition remove_stopwords (s : pystr) : pystr := join (str " ") (filter (fun w => negb (memb w STOPWORDS)) (words is_space s)).
Definition strip_punctuation : pystr -> pystr := rsub RE_PUNCT (fun _ => str " ").
Definition strip_tags : pystr -> pystr := rsub RE_TAGS (fun _ => []).
Definition strip_short (minsize : Z) (s : pystr) : pystr := join (str " ") (filter (fun w => (minsize <=? Z.of_nat (length w))%Z) (words is_space s)).
Definition strip_numeric : pystr -> pystr := rsub RE_NUMERIC (fun _ => []).
Definition strip_non_alphanum : pystr -> pystr := rsub RE_NONALPHA (fun _ => str " ").
Definition strip_multiple_whitespaces : pystr -> pystr := rsub RE_WHITESPACE (fun _ => str " ").
Definition groups12 (gs : list pystr) : pystr := nth 0 gs [] ++ str " " ++ nth 1 gs [].
Definition split_alphanum (s : pystr) : pystr := rsub RE_NUM_AL groups12 (rsub RE_AL_NUM groups12 s).
(** 305-307 *)
Definition stem_text (text : pystr) : result pystr :=
  let* r := stem_all depth lower (words is_space text) stemmer0 in Ok (join (str " ") (fst r)).
(** 313-317 *)
Definition DEFAULT_FILTERS : list (pystr -> result pystr) :=
  [fun x => Ok (lower x); fun x => Ok (strip_tags x); fun x => Ok (strip_punctuation x); fun x => Ok (strip_multiple_whitespaces x);
   fun x => Ok (strip_numeric x); fun x => Ok (remove_stopwords x); fun x => Ok (strip_short 3 x); stem_text].
(** 357-360, 384 *)
Definition preprocess_string (s : pystr) (filters : list (pystr -> result pystr)) : result (list pystr) :=
  let* s := rfold (fun s f => f s) filters s in Ok (words is_space s).
Definition preprocess_documents (docs : list pystr) : result (list (list pystr)) := rmapM (fun d => preprocess_string d DEFAULT_FILTERS) docs.

(** utils.py 274-275, 300-304 (without [deacc]) *)
Definition simple_tokenize : pystr -> list pystr := finditer PAT_ALPHABETIC.
Definition simple_preprocess (doc : pystr) (min_len max_len : Z) : list pystr :=
  filter (fun t => ((min_len <=? Z.of_nat (length t)) && (Z.of_nat (length t) <=? max_len))%Z && negb (match t with c :: _ => is 95%N c | [] => false end))
    (simple_tokenize (lower doc)).

(** ** HTML entities *)
(** [int(s)] and [int(s, 16)] of word characters: underscores may separate digits; "0x" may precede hexadecimal ones *)
Definition nonempty (s : pystr) : bool := match s with [] => false | _ => true end.
Definition int10 (s : pystr) : option N := if forallb nonempty (split_on 95%N s) then parse_N (concat (split_on 95%N s)) else None.
Definition hexdigit (c : N) : option N :=
  if is_digit c then Some (c - 48)%N else if ((97 <=? c) && (c <=? 102))%N then Some (c - 87)%N else if ((65 <=? c) && (c <=? 70))%N then Some (c - 55)%N else None.
Fixpoint hexval (acc : N) (s : pystr) : option N :=
  match s with [] => Some acc | c :: s' => match hexdigit c with Some d => hexval (16 * acc + d) s' | None => None end end.
Definition int16 (s : pystr) : option N :=
  let body := match s with
              | z :: x :: s' => if is 48%N z && (is 120%N x || is 88%N x) then match s' with u :: s'' => if is 95%N u then s'' else s' | [] => s' end else s
              | _ => s
              end in
  if forallb nonempty (split_on 95%N body) then hexval 0 (concat (split_on 95%N body)) else None.
(** 1072-1078: a number that is no character ends in an error, which 1124-1126 turns into the text itself *)
Definition safe_unichr (v : N) : option pystr := if (v <=? 1114111)%N then Some [v] else None.
(** 1107-1126 *)
Definition substitute_entity (gs : list pystr) : pystr :=
  let whole := concat gs in
  let ent := nth 3 gs [] in
  let of (v : option N) := match v with Some v => match safe_unichr v with Some t => t | None => whole end | None => whole end in
  if nonempty (nth 1 gs []) then
    if nonempty (nth 2 gs []) then of (int16 ent) else of (int10 ent)
  else
    match n2cp ent with Some cp => if N.eqb cp 0 then whole else of (Some cp) | None => whole end.
Definition decode_htmlentities : pystr -> pystr := rsub RE_HTML_ENTITY substitute_entity.
End Text.
