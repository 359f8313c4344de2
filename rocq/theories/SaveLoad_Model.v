(** Model of SaveLoad in /repo/gensim/utils.py: load 389-422, _load_specials 424-490, _adapt_by_suffix 492-508,
    _smart_save 510-551, _save_specials 553-649, save 651-690.

    Objects live in a heap, by location, and hold their instance attributes (class attributes, properties and [__slots__] are not
    modelled).  An attribute is a numpy array, a csr/csc matrix, another SaveLoad object (by reference), or anything else, which
    is pickled in place.  Pickling an object writes a snapshot of the heap and the object's location, so that references inside
    it keep their sharing; the object read back is the snapshot.  A matrix is only referred to by the object that holds it.
    Any write may fail: [w_left] is the number of writes that still succeed ([None]: all of them), and a failed write leaves a
    truncated file.  The recursion of the two [_specials] functions is bounded by [fuel], as by Python's recursion limit (a
    RuntimeError).  Memory mapping is modelled by its error on compressed files only. *)

From Verif Require Import Base Str.

Definition loc : Type := nat.
Notation attr := pystr (only parsing).
Inductive value : Type :=
| VArr (shape : list nat) (data : list Z)
| VSparse (arrays : option (list Z * list Z * list Z)) (rest : N)     (* data, indptr, indices *)
| VSub (l : loc)
| VNames (names : list attr)
| VNone
| VOther (x : N).
Definition attrs : Type := dict attr value.
Definition heap : Type := dict loc attrs.
Inductive content : Type :=
| CArr (shape : list nat) (data : list Z)
| CArrays (data indptr indices : list Z)
| CValue (v : value)
| CObject (h : heap) (l : loc)
| CPartial.
Record world : Type := mkWorld { w_heap : heap; w_fs : dict pystr content; w_left : option nat }.

Definition attrs_of (w : world) (l : loc) : attrs := dget_or (w_heap w) l [].
Definition set_attrs (w : world) (l : loc) (a : attrs) : world := mkWorld (dset (w_heap w) l a) (w_fs w) (w_left w).
Definition setattr (w : world) (l : loc) (a : attr) (v : value) : world := set_attrs w l (dset (attrs_of w l) a v).
Definition write (name : pystr) (c : content) (w : world) : result unit * world :=
  match w_left w with
  | Some 0 => (Err OSErr, mkWorld (w_heap w) (dset (w_fs w) name CPartial) (Some 0))
  | Some (S n) => (Ok tt, mkWorld (w_heap w) (dset (w_fs w) name c) (Some n))
  | None => (Ok tt, mkWorld (w_heap w) (dset (w_fs w) name c) None)
  end.

Definition dot : pystr := [46%N].
Definition a_numpys : attr := str "__numpys".
Definition a_scipys : attr := str "__scipys".
Definition a_ignoreds : attr := str "__ignoreds".
Definition a_subs : attr := str "__recursive_saveloads".
Definition ends_with (suf s : pystr) : bool := (length suf <=? length s) && eqb (skipn (length s - length suf) s) suf.
(** 492-508 *)
Definition compressed (fname : pystr) : bool := ends_with (str ".gz") fname || ends_with (str ".bz2") fname.
Definition subname (compress : bool) (args : list pystr) : pystr := join dot (args ++ [if compress then str "npz" else str "npy"]).

(** 582-589 *)
Definition is_large (limit : Z) (v : value) : bool :=
  match v with
  | VArr _ data => (limit <=? Z.of_nat (length data))%Z
  | VSparse (Some (_, indptr, _)) _ => (limit <=? last indptr 0)%Z
  | _ => false
  end.
Definition detect (limit : Z) (self : attrs) : list attr := map fst (filter (fun av => is_large limit (snd av)) self).
(** 591-596 *)
Fixpoint set_aside (names : list attr) (asides self : attrs) : attrs * attrs :=
  match names with
  | [] => (asides, self)
  | a :: r => match dget self a with Some v => set_aside r (dset asides a v) (ddel self a) | None => set_aside r asides self end
  end.
(** 611-616: [np.ascontiguousarray] makes a 0-d array 1-d. *)
Definition contiguous (shape : list nat) : list nat := match shape with [] => [1] | _ => shape end.
(** 618-640: a matrix is written without its arrays, which are put back whether or not that succeeds. *)
Definition write_arrays (compress : bool) (fname a : pystr) (d p i : list Z) (w : world) : result unit * world :=
  if compress then write (subname compress [fname; a; str "sparse"]) (CArrays d p i) w
  else
    match write (subname compress [fname; a; str "data"]) (CArr [length d] d) w with
    | (Err e, w') => (Err e, w')
    | (Ok _, w1) =>
      match write (subname compress [fname; a; str "indptr"]) (CArr [length p] p) w1 with
      | (Err e, w') => (Err e, w')
      | (Ok _, w2) => write (subname compress [fname; a; str "indices"]) (CArr [length i] i) w2
      end
    end.
Definition write_sparse (compress : bool) (fname a : pystr) (v : value) (w : world) : result unit * value * world :=
  match v with
  | VSparse (Some (d, p, i)) rest =>
    match write_arrays compress fname a d p i w with
    | (Err e, w') => (Err e, v, w')
    | (Ok _, w1) =>
      let saved := (d, p, i) in
      let stripped := VSparse None rest in
      let (r, w2) := write (subname compress [fname; a]) (CValue stripped) w1 in
      (r, match stripped with VSparse _ rest => VSparse (Some saved) rest | _ => stripped end, w2)
    end
  | _ => (Err AttributeErr, v, w)
  end.
(** 607-644 *)
Record kinds : Type := mkKinds { k_numpys : list attr; k_scipys : list attr; k_ignoreds : list attr }.
Fixpoint store_all (compress : bool) (fname : pystr) (ignore : list attr) (asides : attrs) (k : kinds) (w : world) : result kinds * attrs * world :=
  match asides with
  | [] => (Ok k, [], w)
  | (a, v) :: rest =>
    let '(r, v', k', w') :=
      match v with
      | VArr shape data =>
        if memb a ignore then (Ok tt, v, mkKinds (k_numpys k) (k_scipys k) (k_ignoreds k ++ [a]), w)
        else let (r, w1) := write (subname compress [fname; a]) (CArr (contiguous shape) data) w in (r, v, mkKinds (k_numpys k ++ [a]) (k_scipys k) (k_ignoreds k), w1)
      | VSparse _ _ =>
        if memb a ignore then (Ok tt, v, mkKinds (k_numpys k) (k_scipys k) (k_ignoreds k ++ [a]), w)
        else let '(r, v', w1) := write_sparse compress fname a v w in (r, v', mkKinds (k_numpys k) (k_scipys k ++ [a]) (k_ignoreds k), w1)
      | _ => (Ok tt, v, mkKinds (k_numpys k) (k_scipys k) (k_ignoreds k ++ [a]), w)
      end in
    match r with
    | Err e => (Err e, (a, v') :: rest, w')
    | Ok _ => let '(r2, rest', w2) := store_all compress fname ignore rest k' w' in (r2, (a, v') :: rest', w2)
    end
  end.
Definition restore (w : world) (l : loc) (asides : attrs) : world := fold_left (fun w av => setattr w l (fst av) (snd av)) asides w.
Definition restore_all (w : world) (restores : list (loc * attrs)) : world := fold_left (fun w la => restore w (fst la) (snd la)) restores w.
Definition bookkeeping (k : kinds) (subs : list attr) (w : world) (l : loc) : world :=
  setattr (setattr (setattr (setattr w l a_numpys (VNames (k_numpys k))) l a_scipys (VNames (k_scipys k))) l a_ignoreds (VNames (k_ignoreds k))) l a_subs (VNames subs).
(** 600-605: the loop over the attributes that are SaveLoad objects *)
Fixpoint each_sub (go : loc -> attr -> world -> result (list (loc * attrs)) * world) (items : attrs) (w : world) : result (list attr * list (loc * attrs)) * world :=
  match items with
  | [] => (Ok ([], []), w)
  | (a, VSub l) :: rest =>
    match go l a w with
    | (Err e, w') => (Err e, w')
    | (Ok r1, w1) => match each_sub go rest w1 with (Err e, w') => (Err e, w') | (Ok (subs, r2), w2) => (Ok (a :: subs, r1 ++ r2), w2) end
    end
  | _ :: rest => each_sub go rest w
  end.
(** 553-649.  The recursive calls are outside of the [try]. *)
Fixpoint save_specials (fuel : nat) (l : loc) (fname : pystr) (separately : option (list attr)) (limit : Z) (ignore : list attr) (compress : bool) (w : world)
  : result (list (loc * attrs)) * world :=
  match fuel with
  | 0 => (Err RuntimeErr, w)
  | S f =>
    let sep := match separately with Some s => s | None => detect limit (attrs_of w l) end in
    let (asides, self) := set_aside (sep ++ ignore) [] (attrs_of w l) in
    let w1 := set_attrs w l self in
    match each_sub (fun l' a w' => save_specials f l' (join dot [fname; a]) None limit ignore compress w') self w1 with
    | (Err e, w2) => (Err e, w2)
    | (Ok (subs, restores), w2) =>
      match store_all compress fname ignore asides (mkKinds [] [] []) w2 with
      | (Err e, asides', w3) => (Err e, restore w3 l asides')
      | (Ok k, asides', w3) => (Ok (restores ++ [(l, asides')]), bookkeeping k subs w3 l)
      end
    end
  end.
(** 510-551 *)
Definition smart_save (fuel : nat) (l : loc) (fname : pystr) (separately : option (list attr)) (limit : Z) (ignore : list attr) (w : world) : result unit * world :=
  match save_specials fuel l fname separately limit ignore (compressed fname) w with
  | (Err e, w1) => (Err e, w1)
  | (Ok restores, w1) => let (r, w2) := write fname (CObject (w_heap w1) l) w1 in (r, restore_all w2 restores)
  end.
(** 651-690: a name is not a file handle, which [dump] finds out at once; a handle opened on [name] takes the whole object.  An error
    of type TypeError while pickling to a handle is not modelled. *)
Inductive target : Type := ToName (name : pystr) | ToHandle (name : pystr).
Definition save (fuel : nat) (l : loc) (t : target) (separately : option (list attr)) (limit : Z) (ignore : list attr) (w : world) : result unit * world :=
  match t with
  | ToName name => smart_save fuel l name separately limit ignore w
  | ToHandle name => write name (CObject (w_heap w) l) w
  end.

(** ** Loading *)
Definition names_of (h : heap) (l : loc) (a : attr) : result (list attr) :=
  match dget (dget_or h l []) a with None => Ok [] | Some (VNames ns) => Ok ns | Some _ => Err TypeError end.
Definition hset (h : heap) (l : loc) (a : attr) (v : value) : heap := dset h l (dset (dget_or h l []) a v).
Definition np_load (fs : dict pystr content) (name : pystr) : result (list nat * list Z) :=
  match dget fs name with Some (CArr s d) => Ok (s, d) | Some _ => Err ValueError | None => Err OSErr end.
Definition load_array (fs : dict pystr content) (fname : pystr) (mmap compress : bool) (l : loc) (h : heap) (a : attr) : result heap :=
  if compress && mmap then Err OSErr
  else let* (s, d) := np_load fs (subname compress [fname; a]) in Ok (hset h l a (VArr s d)).
Definition load_sparse (fs : dict pystr content) (fname : pystr) (mmap compress : bool) (l : loc) (h : heap) (a : attr) : result heap :=
  let* sparse := match dget fs (subname compress [fname; a]) with Some (CValue v) => Ok v | Some _ => Err ValueError | None => Err OSErr end in
  let* rest := match sparse with VSparse _ rest => Ok rest | _ => Err AttributeErr end in
  if compress then
    if mmap then Err OSErr
    else match dget fs (subname compress [fname; a; str "sparse"]) with
         | Some (CArrays d p i) => Ok (hset h l a (VSparse (Some (d, p, i)) rest))
         | Some _ => Err ValueError
         | None => Err OSErr
         end
  else
    let* (_, d) := np_load fs (subname compress [fname; a; str "data"]) in
    let* (_, p) := np_load fs (subname compress [fname; a; str "indptr"]) in
    let* (_, i) := np_load fs (subname compress [fname; a; str "indices"]) in
    Ok (hset h l a (VSparse (Some (d, p, i)) rest)).
Fixpoint load_specials (fuel : nat) (fs : dict pystr content) (l : loc) (fname : pystr) (mmap compress : bool) (h : heap) : result heap :=
  match fuel with
  | 0 => Err RuntimeErr
  | S f =>
    let* subs := names_of h l a_subs in
    let* h1 := rfold (fun (h : heap) (a : attr) => match dget (dget_or h l []) a with
                                 | Some (VSub l') => load_specials f fs l' (join dot [fname; a]) mmap compress h
                                 | _ => Err AttributeErr
                                 end) subs h in
    let* numpys := names_of h1 l a_numpys in
    let* h2 := rfold (load_array fs fname mmap compress l) numpys h1 in
    let* scipys := names_of h2 l a_scipys in
    let* h3 := rfold (load_sparse fs fname mmap compress l) scipys h2 in
    let* ignoreds := names_of h3 l a_ignoreds in
    Ok (fold_left (fun (h : heap) (a : attr) => hset h l a VNone) ignoreds h3)
  end.
Definition load (fuel : nat) (fs : dict pystr content) (fname : pystr) (mmap : bool) : result (heap * loc) :=
  match dget fs fname with
  | Some (CObject h l) => let* h' := load_specials fuel fs l fname mmap (compressed fname) h in Ok (h', l)
  | Some _ => Err ValueError
  | None => Err OSErr
  end.
