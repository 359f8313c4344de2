(** How JSON is read (property C133): RFC 8259 without numbers and truth values, strings as sequences of UTF-16 code units. *)
From Verif Require Import Base Str WikiPages_Model SegmentJson_Model.
Local Open Scope nat_scope.

Definition unhex (c : N) : option N :=
  (if (48 <=? c) && (c <=? 57) then Some (c - 48) else if (97 <=? c) && (c <=? 102) then Some (c - 87) else if (65 <=? c) && (c <=? 70) then Some (c - 55) else None)%N.
Definition unhex4 (a b c d : N) : option N :=
  match unhex a, unhex b, unhex c, unhex d with Some a, Some b, Some c, Some d => Some (a * 4096 + b * 256 + c * 16 + d)%N | _, _, _, _ => None end.
Definition short_escapes : list (N * N) := [(34, 34); (92, 92); (47, 47); (98, 8); (102, 12); (110, 10); (114, 13); (116, 9)]%N.
(** After the opening quote: the code units of the string, and what comes after the closing quote *)
Fixpoint units (s : pystr) : option (list N * pystr) :=
  match s with
  | [] => None
  | c :: s1 =>
    if N.eqb c 34 then Some ([], s1)
    else if N.eqb c 92 then
      match s1 with
      | [] => None
      | e :: s2 =>
        if N.eqb e 117 then
          match s2 with
          | a :: b :: c' :: d :: s3 => match unhex4 a b c' d, units s3 with Some u, Some (l, r) => Some (u :: l, r) | _, _ => None end
          | _ => None
          end
        else match dget short_escapes e, units s2 with Some u, Some (l, r) => Some (u :: l, r) | _, _ => None end
      end
    else if (c <? 32)%N then None
    else match units s1 with Some (l, r) => Some (c :: l, r) | None => None end
  end.
Definition high (u : N) : bool := ((55296 <=? u) && (u <=? 56319))%N.
Definition low (u : N) : bool := ((56320 <=? u) && (u <=? 57343))%N.
Fixpoint characters_of (l : list N) : pystr :=
  match l with
  | [] => []
  | u :: l1 => match l1 with
               | v :: l2 => if high u && low v then (65536 + (u - 55296) * 1024 + (v - 56320))%N :: characters_of l2 else u :: characters_of l1
               | [] => [u]
               end
  end.
Fixpoint skip (s : pystr) : pystr := match s with c :: s' => if memb c [32; 9; 10; 13]%N then skip s' else s | [] => [] end.
Definition read_str (s : pystr) : option (pystr * pystr) :=
  match s with c :: s1 => if N.eqb c 34 then match units s1 with Some (l, r) => Some (characters_of l, r) | None => None end else None | [] => None end.
(** Items up to the closing bracket *)
Fixpoint read_items {A : Type} (item : pystr -> option (A * pystr)) (close : N) (n : nat) (s : pystr) : option (list A * pystr) :=
  match n with
  | 0 => None
  | S n' =>
    match item (skip s) with
    | None => None
    | Some (v, s1) =>
      match skip s1 with
      | c :: s2 => if N.eqb c 44 then match read_items item close n' s2 with Some (l, r) => Some (v :: l, r) | None => None end
                   else if N.eqb c close then Some ([v], s2) else None
      | [] => None
      end
    end
  end.
Definition read_list {A : Type} (item : pystr -> option (A * pystr)) (close : N) (s : pystr) : option (list A * pystr) :=
  match skip s with
  | c :: s1 => if N.eqb c close then Some ([], s1) else read_items item close (length s) s
  | [] => None
  end.
Definition read_member (value : pystr -> option (json * pystr)) (s : pystr) : option ((pystr * json) * pystr) :=
  match read_str s with
  | Some (k, s1) => match skip s1 with
                    | c :: s2 => if N.eqb c 58 then match value (skip s2) with Some (v, s3) => Some ((k, v), s3) | None => None end else None
                    | [] => None
                    end
  | None => None
  end.
(** A value of at most [n] levels at the beginning of [s] *)
Fixpoint read_value (n : nat) (s : pystr) : option (json * pystr) :=
  match n with
  | 0 => None
  | S n' =>
    match s with
    | c :: s1 =>
      if N.eqb c 34 then match read_str s with Some (t, r) => Some (JStr t, r) | None => None end
      else if N.eqb c 91 then match read_list (read_value n') 93 s1 with Some (l, r) => Some (JList l, r) | None => None end
      else if N.eqb c 123 then match read_list (read_member (read_value n')) 125 s1 with Some (l, r) => Some (JObj l, r) | None => None end
      else if eqb (firstn 4 s) (str "null") then Some (JNull, skipn 4 s) else None
    | [] => None
    end
  end.
Definition read_json (s : pystr) : option json :=
  match read_value (length s) (skip s) with Some (j, r) => match skip r with [] => Some j | _ => None end | None => None end.

(** Code points, no high surrogate before a low one *)
Fixpoint plain (s : pystr) : Prop :=
  match s with
  | [] => True
  | c :: s' => (c < 1114112)%N /\ match s' with d :: _ => high c && low d = false | [] => True end /\ plain s'
  end.
Fixpoint plain_json (j : json) : Prop :=
  match j with
  | JNull => True
  | JStr s => plain s
  | JList l => fold_right (fun j P => plain_json j /\ P) True l
  | JObj l => fold_right (fun kv P => (plain (fst kv) /\ plain_json (snd kv)) /\ P) True l
  end.
Definition plain_article (a : article) : Prop :=
  let '(title, sections, links) := a in
  (forall t, title = Some t -> plain t) /\ Forall (fun s => plain (fst s) /\ plain (snd s)) sections /\
  (forall l, links = Some l -> Forall (fun p => plain (fst p) /\ plain (snd p)) l).
(** The article that a line tells of *)
Definition field (j : json) (k : String.string) : option json := match j with JObj l => dget l (str k) | _ => None end.
Definition texts (j : option json) : option (list pystr) :=
  match j with
  | Some (JList l) => fold_right (fun x r => match x, r with JStr s, Some t => Some (s :: t) | _, _ => None end) (Some []) l
  | _ => None
  end.
Definition tells (include : bool) (j : json) (a : article) : Prop :=
  let '(title, sections, links) := a in
  field j "title" = Some (match title with Some t => JStr t | None => JNull end) /\
  texts (field j "section_titles") = Some (map fst sections) /\
  texts (field j "section_texts") = Some (map snd sections) /\
  if include then exists l, links = Some l /\ field j "interlinks" = Some (JList (map (fun p => JList [JStr (fst p); JStr (snd p)]) l)) else field j "interlinks" = None.
