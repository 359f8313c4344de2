(** Model of the files of similarity indexes: gensim/similarities/docsim.py 416-433 ([shardid2filename]), 435-462 ([close_shard]), 464-476 ([reopen_shard]), 711-749
    ([save], after the open shard is closed), 751-756 ([destroy]).

    Several indexes share a file system.  An index is known by its prefix and by the contents its shards should have; whether a shard can be read again is
    what is asked.  Simplifications: a shard is one file; patterns of [glob] have no special characters in them and every file is in the
    directory of the prefix it begins with (a star does not match a slash); an index is not used after [destroy], as
    documented. *)
From Verif Require Import Base Str Phrases_Model.

Section Files.
Context {C : Type}.
Definition dot : N := 46%N.
Definition shard_name (prefix : pystr) (i : nat) : pystr := if is_prefix [dot] (rev prefix) then prefix ++ show_nat i else prefix ++ [dot] ++ show_nat i.
Record index : Type := Index { prefix : pystr; shards : list C; alive : bool }.
Record world : Type := World { files : dict pystr C; indexes : list index }.
Inductive op : Type :=
| Close (a : nat) (c : C)
| Reopen (a : nat)
| Save (a : nat) (fname : option pystr) (c : C)
| Destroy (a : nat).
Fixpoint set_index (l : list index) (a : nat) (x : index) : list index := match l, a with [], _ => [] | _ :: r, 0 => x :: r | y :: r, S a => y :: set_index r a x end.
Definition the_index (w : world) (a : nat) : result index := match nth_error (indexes w) a with Some x => if alive x then Ok x else Err OSErr | None => Err IndexError end.
Definition step (w : world) (o : op) : result world :=
  match o with
  | Close a c => let* x := the_index w a in Ok (World (dset (files w) (shard_name (prefix x) (length (shards x))) c) (set_index (indexes w) a (Index (prefix x) (shards x ++ [c]) true)))
  | Reopen a => let* x := the_index w a in
                match shards x with [] => Err AssertionErr | _ => Ok (World (files w) (set_index (indexes w) a (Index (prefix x) (removelast (shards x)) true))) end
  | Save a fname c => let* x := the_index w a in Ok (World (dset (files w) (match fname with Some f => f | None => prefix x end) c) (indexes w))
  | Destroy a => let* x := the_index w a in Ok (World (filter (fun fc => negb (is_prefix (prefix x) (fst fc))) (files w)) (set_index (indexes w) a (Index (prefix x) (shards x) false)))
  end.
Definition start (old : dict pystr C) (prefixes : list pystr) : world := World old (map (fun p => Index p [] true) prefixes).
(** what is read back for the shards of an index *)
Definition read_shards (w : world) (x : index) : list (option C) := map (fun i => dget (files w) (shard_name (prefix x) i)) (seq 0 (length (shards x))).
End Files.
Arguments index C : clear implicits.
Arguments world C : clear implicits.
Arguments op C : clear implicits.
