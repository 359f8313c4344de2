(** A backtracking matcher with the rules of Python's [re], for the patterns of /repo/gensim/corpora/wikicorpus.py 44-83 and
    /repo/gensim/scripts/segment_wiki.py 217-218.

    Alternatives are tried from left to right.  A greedy repetition tries one round more before it stops, a lazy one stops first; a
    round that takes no character is not begun again.  A group remembers what it took last.  [sub], [finditer] and [split] take the
    leftmost match and go on behind it, and assertions see the text in front of the match.  No pattern here matches the empty text,
    so the rules for empty matches are left out: such a match counts as none. *)
From Verif Require Import Base Str.
Local Open Scope nat_scope.

Inductive re : Type :=
| Eps
| Chr (f : N -> bool)
| Cat (a b : re)
| Alt (a b : re)
| Star (greedy : bool) (a : re)
| Grp (n : nat) (a : re)
| Look (f : pystr -> pystr -> bool).  (* of the text behind, last character first, and the text ahead *)

(** [back] is the text behind, last character first. *)
Record st : Type := mkSt { back : pystr; ahead : pystr; caps : list (nat * pystr) }.
Definition step (c : N) (t : pystr) (s : st) : st := mkSt (c :: back s) t (caps s).
Definition taken (s s' : st) : pystr := firstn (length (ahead s) - length (ahead s')) (ahead s).
Definition grab (n : nat) (s s' : st) : st := mkSt (back s') (ahead s') ((n, taken s s') :: caps s').

Section Iter.
Context {R : Type} (once : st -> (st -> option R) -> option R).
Fixpoint iter (greedy : bool) (fuel : nat) (s : st) (k : st -> option R) : option R :=
  let more :=
    match fuel with
    | 0 => None
    | S n => once s (fun s' => if length (ahead s') <? length (ahead s) then iter greedy n s' k else None)
    end in
  if greedy then match more with Some x => Some x | None => k s end
  else match k s with Some x => Some x | None => more end.
End Iter.

Fixpoint m {R : Type} (r : re) (s : st) (k : st -> option R) : option R :=
  match r with
  | Eps => k s
  | Chr f => match ahead s with c :: t => if f c then k (step c t s) else None | [] => None end
  | Cat a b => m a s (fun s' => m b s' k)
  | Alt a b => match m a s k with Some x => Some x | None => m b s k end
  | Star g a => iter (m a) g (length (ahead s)) s k
  | Grp n a => m a s (fun s' => k (grab n s s'))
  | Look f => if f (back s) (ahead s) then k s else None
  end.
Definition m1 (r : re) (bk s : pystr) : option st := m r (mkSt bk s []) Some.

(** What group [n] took last, nothing if it took no part. *)
Definition group (n : nat) (x : st) : pystr := dget_or (caps x) n [].

(** [skip] characters of the last match are still to be passed over. *)
Fixpoint sub_from (r : re) (rep : st -> pystr) (skip : nat) (bk s : pystr) : pystr :=
  match s with
  | [] => []
  | c :: s' =>
    match skip with
    | S k => sub_from r rep k (c :: bk) s'
    | 0 => match m1 r bk s with
           | Some x => match length s - length (ahead x) with
                       | 0 => c :: sub_from r rep 0 (c :: bk) s'
                       | S k => rep x ++ sub_from r rep k (c :: bk) s'
                       end
           | None => c :: sub_from r rep 0 (c :: bk) s'
           end
    end
  end.
Definition sub (r : re) (rep : st -> pystr) (s : pystr) : pystr := sub_from r rep 0 [] s.

(** The matches, with the text each of them took. *)
Fixpoint finditer_from (r : re) (skip : nat) (bk s : pystr) : list (pystr * st) :=
  match s with
  | [] => []
  | c :: s' =>
    match skip with
    | S k => finditer_from r k (c :: bk) s'
    | 0 => match m1 r bk s with
           | Some x => match length s - length (ahead x) with
                       | 0 => finditer_from r 0 (c :: bk) s'
                       | S k => (firstn (S k) s, x) :: finditer_from r k (c :: bk) s'
                       end
           | None => finditer_from r 0 (c :: bk) s'
           end
    end
  end.
Definition finditer (r : re) (s : pystr) : list (pystr * st) := finditer_from r 0 [] s.

(** The pieces between the matches. *)
Fixpoint split_from (r : re) (skip : nat) (bk cur s : pystr) : list pystr :=
  match s with
  | [] => [rev cur]
  | c :: s' =>
    match skip with
    | S k => split_from r k (c :: bk) cur s'
    | 0 => match m1 r bk s with
           | Some x => match length s - length (ahead x) with
                       | 0 => split_from r 0 (c :: bk) (c :: cur) s'
                       | S k => rev cur :: split_from r k (c :: bk) [] s'
                       end
           | None => split_from r 0 (c :: bk) (c :: cur) s'
           end
    end
  end.
Definition resplit (r : re) (s : pystr) : list pystr := split_from r 0 [] [] s.

(** ** Parts of patterns *)
Definition ch (c : N) : re := Chr (N.eqb c).
Definition nl : N := 10.
Definition dot : re := Chr (fun c => negb (N.eqb c nl)).
Definition any : re := Chr (fun _ => true).
Fixpoint lit (s : pystr) : re := match s with [] => Eps | [c] => ch c | c :: s' => Cat (ch c) (lit s') end.
Definition opt (a : re) : re := Alt a Eps.
Fixpoint upto (n : nat) (a : re) : re := match n with 0 => Eps | S n' => opt (Cat a (upto n' a)) end.
Definition plus (a : re) : re := Cat a (Star true a).
Definition lazy (a : re) : re := Star false a.
Definition many (a : re) : re := Star true a.
Fixpoint alts (rs : list re) : re := match rs with [] => Chr (fun _ => false) | [r] => r | r :: rs' => Alt r (alts rs') end.
Definition none_of (cs : pystr) : re := Chr (fun c => negb (memb c cs)).
Fixpoint seq (rs : list re) : re := match rs with [] => Eps | [r] => r | r :: rs' => Cat r (seq rs') end.

(** [s.replace(old, new)] and [s.replace(old, new, 1)] for an [old] that is not empty *)
Fixpoint begins (p s : pystr) : bool :=
  match p, s with
  | [], _ => true
  | a :: p', b :: s' => N.eqb a b && begins p' s'
  | _, [] => false
  end.
Fixpoint replace_from (old new : pystr) (skip : nat) (s : pystr) : pystr :=
  match s with
  | [] => []
  | c :: s' =>
    match skip with
    | S k => replace_from old new k s'
    | 0 => if begins old s then new ++ replace_from old new (length old - 1) s' else c :: replace_from old new 0 s'
    end
  end.
Definition replace (old new s : pystr) : pystr := replace_from old new 0 s.
Fixpoint replace1 (old new s : pystr) : pystr :=
  if begins old s then new ++ skipn (length old) s
  else match s with [] => [] | c :: s' => c :: replace1 old new s' end.
