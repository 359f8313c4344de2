(** Model of gensim/examples/dmlcz/sources.py 249-271 ([ArxmlivContentHandler]), 337-348 ([ArxmlivSource.tokenize]), 350-354 ([normalizeWord]).

    Simplifications: the parser is the sequence of events it hands over; [encode('utf8')] is the identity on words (bytes that stand for a word are [Word], strings
    are [Math]); [repr] is how bytes are shown by ['%s']. *)
From Verif Require Import Base Str Text_Model.

Inductive event : Type :=
| Start (name : pystr) (attr : dict pystr pystr)
| End (name : pystr)
| Chars (text : pystr).
Inductive token : Type := Word (w : pystr) | Math (s : pystr).
Record handler : Type := Handler { path : list pystr (* innermost first *); tokens : list token }.

Section Arxmliv.
Context (wordc decimal digit : N -> bool) (repr : pystr -> pystr) (lower : pystr -> pystr).
(** [str.isdigit] *)
Definition isdigit (s : pystr) : bool := match s with [] => false | _ => forallb digit s end.
Definition dollar : pystr := str "$".
Definition top_is_p (h : handler) : result bool := match path h with [] => Err IndexError | n :: _ => Ok (if eq_dec n (str "p") then true else false) end.
Definition attr_get (attr : dict pystr pystr) (k : pystr) : pystr := match dget attr k with Some v => v | None => [] end.
(** 254-271 *)
Definition handle (h : handler) (e : event) : result handler :=
  match e with
  | Start name attr =>
      let* p := if eq_dec name (str "Math") then top_is_p h else Ok false in
      let tex := attr_get attr (str "tex") in
      let more := if p && (if eq_dec (attr_get attr (str "mode")) (str "inline") then true else false) && match tex with [] => false | _ => negb (isdigit tex) end
                  then [Math (dollar ++ repr tex ++ dollar)] else [] in
      Ok (Handler (name :: path h) (tokens h ++ more))
  | End _ => match path h with [] => Err IndexError | _ :: r => Ok (Handler r (tokens h)) end
  | Chars text =>
      let* p := top_is_p h in
      if p then Ok (Handler (path h) (tokens h ++ map Word (filter (fun t => negb (isdigit t)) (simple_tokenize wordc decimal text)))) else Ok h
  end.
(** 250-252 *)
Definition handler0 : handler := Handler [[]] [].
(** 346-348 *)
Definition xml_tokenize (events : list event) : result (list token) := let* h := rfold handle events handler0 in Ok (tokens h).
(** 350-354: the first element of bytes is a number, which is no dollar sign *)
Definition normalize_word (t : token) : result token :=
  match t with
  | Word [] => Err IndexError
  | Word w => Ok (Word (lower w))
  | Math [] => Err IndexError
  | Math (c :: s) => if eq_dec [c] dollar then Ok (Math (c :: s)) else Err TypeError
  end.
End Arxmliv.
