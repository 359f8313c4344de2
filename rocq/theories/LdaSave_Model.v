(** Model of /repo/gensim/models/ldamodel.py 1533-1677 (`LdaModel.save`, `LdaModel.load`), /repo/gensim/utils.py 1310-1347 (`smart_extension`) and `os.path.splitext`.

    Simplifications: the file system is a table from names to pickled objects ([OBad]: a file that cannot be read); arrays stored in separate files belong to the object they
    are part of (SaveLoad_Model has the details), so `separately` has no effect here; an attribute is a value of the type [V] and `state`, `id2word` are kept apart; the
    elements of `ignore` are strings; loading a main file that does not hold a model is an error. *)
From Verif Require Import Base Str SaveLoad_Model.

(** ** Names of files *)
Definition sl : N := 47.
Definition dt : N := 46.
(** the part of a reversed name up to its first '.' ('/' comes before: None) *)
Fixpoint last_dot (r acc : pystr) : option (pystr * pystr) :=
  match r with
  | [] => None
  | c :: r' => if (c =? dt)%N then Some (acc, r') else if (c =? sl)%N then None else last_dot r' (c :: acc)
  end.
Fixpoint has_stem (r : pystr) : bool :=
  match r with
  | [] => false
  | c :: r' => if (c =? sl)%N then false else if (c =? dt)%N then has_stem r' else true
  end.
(** os.path.splitext *)
Definition splitext (p : pystr) : pystr * pystr :=
  match last_dot (rev p) [] with
  | Some (e, r) => if has_stem r then (rev r, dt :: e) else (p, [])
  | None => (p, [])
  end.
(** utils.py 1339-1347 *)
Definition smart_extension (fname ext : pystr) : pystr :=
  let (root, oext) := splitext fname in
  if ends_with (str ".bz2") oext then root ++ firstn (length oext - 4) oext ++ ext ++ str ".bz2"
  else if ends_with (str ".gz") oext then root ++ firstn (length oext - 3) oext ++ ext ++ str ".gz"
  else root ++ oext ++ ext.

(** ** Saving and loading *)
Section LdaSave.
Context {V S W : Type}.
Variable vnone : V.                 (* Python's None *)
Variables (default_rs default_dtype : V).

Record lda : Type := mkLda { la_attrs : dict pystr V; la_state : option S; la_id2word : W }.
Inductive pobj : Type := OModel (attrs : dict pystr V) (state id2word : option pobj) | OState (s : S) | ODict (w : W) | OBad.
Definition files : Type := dict pystr pobj.
(** the argument `ignore` *)
Inductive ign : Type := INone | IStr (s : pystr) | IList (l : list pystr).

Fixpoint prefixb (p s : pystr) : bool := match p, s with [], _ => true | _ :: _, [] => false | a :: p', b :: s' => (a =? b)%N && prefixb p' s' end.
Fixpoint substrb (p s : pystr) : bool := prefixb p s || match s with [] => false | _ :: s' => substrb p s' end.
(** `a in ignore` *)
Definition in_ign (a : pystr) (i : ign) : result bool :=
  match i with INone => Err TypeError | IStr s => Ok (substrb a s) | IList l => Ok (memb a l) end.
Definition always : list pystr := [str "state"; str "dispatcher"; str "id2word"].
(** 1585-1592 *)
Definition eff_ignore (i : ign) : list pystr :=
  match i with
  | INone => always
  | IStr s => always ++ filter (fun e : pystr => negb (length e =? 0)) [s]
  | IList l => always ++ filter (fun e : pystr => negb (length e =? 0)) l
  end.
Definition state_name (f : pystr) : pystr := smart_extension f (str ".state").
Definition dict_name (f : pystr) : pystr := smart_extension f (str ".id2word").
(** attributes that are not stored come back as None *)
Definition pickled (l : list pystr) (attrs : dict pystr V) : dict pystr V := map (fun av => (fst av, if memb (fst av) l then vnone else snd av)) attrs.

(** 1577-1612 *)
Definition save_lda (f : pystr) (i : ign) (m : lda) (fs : files) : result unit * files :=
  let fs1 := match la_state m with Some s => dset fs (state_name f) (OState s) | None => fs end in
  match in_ign (str "id2word") i with
  | Err e => (Err e, fs1)
  | Ok b =>
    let fs2 := if b then fs1 else dset fs1 (dict_name f) (ODict (la_id2word m)) in
    (Ok tt, dset fs2 f (OModel (pickled (eff_ignore i) (la_attrs m)) None None))
  end.

Definition readable (fs : files) (f : pystr) : option pobj := match dget fs f with Some OBad => None | o => o end.
Definition with_default (a : pystr) (v : V) (attrs : dict pystr V) : dict pystr V := match dget attrs a with Some _ => attrs | None => dset attrs a v end.
(** 1641-1677: attributes, state and dictionary of the result *)
Definition load_lda (f : pystr) (fs : files) : result (dict pystr V * option pobj * option pobj) :=
  match dget fs f with
  | Some (OModel attrs st dc) =>
    let attrs := with_default (str "dtype") default_dtype (with_default (str "random_state") default_rs attrs) in
    let st := match readable fs (state_name f) with Some o => Some o | None => st end in
    let dc := match readable fs (dict_name f) with Some o => Some o | None => dc end in
    Ok (attrs, st, dc)
  | _ => Err OSErr
  end.
End LdaSave.
Definition default_ignore : ign := IList [str "state"; str "dispatcher"].
