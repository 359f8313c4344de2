(** Model of /repo/gensim/downloader.py 189-225 (`_load_info`), 228-289 (`info`), 292-343 (`_get_checksum`, `_get_parts`), 346-409 (`_download`),
    412-432 (`_get_filename`), 435-498 (`load` with return_path).

    Simplifications: the directory gensim-data exists and can be written; what a directory in it holds is given by file name.  The network is a function of time
    (None: an error).  JSON and MD5 are parameters.  The temporary directory outside of gensim-data is not recorded.  `shutil.move` between file systems copies file by
    file: [copies] gives what the directory holds in between.  A world records what gensim-data held before each step, so that a process killed at any moment leaves one
    of these.  The import of the downloaded module (500-503) is not modelled. *)
From Verif Require Import Base Str.

Definition bytes : Type := list N.
Definition folder : Type := dict pystr bytes.
Record entry : Type := Entry { e_parts : option nat; e_file : option pystr; e_sum : option bytes; e_sums : dict nat bytes; e_latest : option bool }.
Record catalog : Type := Catalog { corpora : dict pystr entry; models : dict pystr entry }.
Inductive url : Type := UList | UInit (name : pystr) | UData (name : pystr) | UPart (name : pystr) (part : nat).
Record world : Type := World { w_time : nat; w_cache : option bytes; w_dirs : pystr -> option folder; w_seen : list (pystr -> option folder) }.
Definition M (A : Type) : Type := world -> result A * world.
Definition ret {A} (a : A) : M A := fun w => (Ok a, w).
Definition raise {A} (e : exn) : M A := fun w => (Err e, w).
Definition bind {A B} (m : M A) (f : A -> M B) : M B := fun w => match m w with (Ok a, w') => f a w' | (Err e, w') => (Err e, w') end.
Notation "'do' x <- m ; f" := (bind m (fun x => f)) (at level 61, right associativity, x name).

Definition s_init : pystr := str "__init__.py".
Definition tmp_of (name : pystr) : pystr := name ++ str "_tmp".
Definition gz_of (name : pystr) : pystr := name ++ str ".gz".

Section Net.
Variable net : nat -> url -> option bytes.
Variable parse : bytes -> option catalog.
Variable md5 : bytes -> bytes.
Variable copies : folder -> list folder.

Definition fetch (u : url) : M (option bytes) := fun w => (Ok (net (w_time w) u), World (S (w_time w)) (w_cache w) (w_dirs w) (w_seen w)).
Definition retrieve (u : url) : M bytes := do b <- fetch u; match b with Some b => ret b | None => raise OSErr end.
Definition write_cache (b : bytes) : M unit := fun w => (Ok tt, World (w_time w) (Some b) (w_dirs w) (w_seen w)).
Definition read_cache : M (option bytes) := fun w => (Ok (w_cache w), w).
Definition dirs : M (pystr -> option folder) := fun w => (Ok (w_dirs w), w).
Definition set_dirs (d : pystr -> option folder) : M unit := fun w => (Ok tt, World (w_time w) (w_cache w) d (w_dirs w :: w_seen w)).
Definition upd (d : pystr -> option folder) (k : pystr) (v : option folder) : pystr -> option folder := fun k' => if eqb k k' then v else d k'.

(** 189-225; a broken JSON is a ValueError as well *)
Definition load_info : M catalog :=
  do b <- fetch UList;
  do _u <- (match b with Some b => write_cache b | None => ret tt end);
  do c <- read_cache;
  match c with None => raise ValueError | Some b => match parse b with Some i => ret i | None => raise ValueError end end.
Definition is_latest (e : entry) : bool := match e_latest e with Some b => b | None => true end.
Definition latest (d : dict pystr entry) : dict pystr entry := filter (fun ne => is_latest (snd ne)) d.
(** 268-278 *)
Definition info_of (name : pystr) : M entry :=
  do i <- load_info;
  match dget (corpora i) name with Some e => ret e | None => match dget (models i) name with Some e => ret e | None => raise ValueError end end.
(** 286-289 *)
Definition info_latest : M catalog := do i <- load_info; ret (Catalog (latest (corpora i)) (latest (models i))).
Definition lookup (name : pystr) : M (option entry) :=
  do i <- info_latest; ret (match dget (corpora i) name with Some e => Some e | None => dget (models i) name end).
(** A field of the entry of a name: None if there is no such name, KeyError if the entry has no such field *)
Definition field {A} (name : pystr) (f : entry -> option A) : M (option A) :=
  do e <- lookup name; match e with None => ret None | Some e => match f e with Some x => ret (Some x) | None => raise KeyError end end.
Definition get_checksum (name : pystr) (part : option nat) : M (option bytes) := field name (fun e => match part with None => e_sum e | Some p => dget (e_sums e) p end).
Definition get_parts (name : pystr) : M (option nat) := field name e_parts.
Definition get_filename (name : pystr) : M (option pystr) := field name e_file.

(** 346-409 *)
Definition checked (name : pystr) (part : option nat) (u : url) : M bytes :=
  do c <- retrieve u;
  do s <- get_checksum name part;
  if eqb (Some (md5 c)) s then ret c else raise RuntimeErr.
Fixpoint parts_from (name : pystr) (ps : list nat) : M (list bytes) :=
  match ps with [] => ret [] | p :: ps' => do c <- checked name (Some p) (UPart name p); do cs <- parts_from name ps'; ret (c :: cs) end.
Fixpoint copy_steps (k : pystr) (cs : list folder) : M unit :=
  match cs with [] => ret tt | c :: cs' => do d <- dirs; do _u <- set_dirs (upd d k (Some c)); copy_steps k cs' end.
Definition download (name : pystr) : M unit :=
  do code <- retrieve (UInit name);
  do total <- get_parts name;
  match total with
  | None => raise TypeError
  | Some n =>
    do data <- (if Nat.ltb 1 n then do cs <- parts_from name (seq 0 n); ret (concat cs) else checked name None (UData name));
    let files := [(s_init, code); (gz_of name, data)] in
    do d <- dirs;
    match d (tmp_of name) with
    | Some _ => raise OSErr
    | None =>
      do _u <- copy_steps (tmp_of name) (copies files ++ [files]);
      do d <- dirs;
      match d name with
      | Some _ => raise OSErr
      | None => set_dirs (upd (upd d (tmp_of name) None) name (Some files))
      end
    end
  end.
(** 489-498: with return_path *)
Definition load (name : pystr) : M (pystr * pystr) :=
  do f <- get_filename name;
  match f with
  | None => raise ValueError
  | Some f =>
    do d <- dirs;
    do _u <- (match d name with Some _ => ret tt | None => download name end);
    ret (name, f)
  end.
End Net.
