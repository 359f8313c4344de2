(** What saving and loading should do to the attributes of objects. *)
From Verif Require Import Base Str SaveLoad_Model.

(** The attribute [a] of the object at [l]. *)
Definition at_ (h : heap) (l : loc) (a : attr) : option value := match dget h l with Some A => dget A a | None => None end.
(** The four attributes that saving adds. *)
Definition book (a : attr) : Prop := In a [str "__numpys"; str "__scipys"; str "__ignoreds"; str "__recursive_saveloads"].
(** Every attribute of every object is as before. *)
Definition intact (h h' : heap) : Prop := forall l a, ~ book a -> at_ h' l a = at_ h l a.
(** Every attribute is as before or gone. *)
Definition only_lost (h h' : heap) : Prop := forall l a, ~ book a -> at_ h' l a = at_ h l a \/ at_ h' l a = None.
(** An object has each attribute once. *)
Definition wf_heap (h : heap) : Prop := forall l A, dget h l = Some A -> NoDup (map fst A).
(** Which attributes are kept out of the pickle: the ignored, and those asked for (by default: arrays and matrices of at least
    [limit] entries). *)
Definition large (limit : Z) (v : value) : bool :=
  match v with
  | VArr _ data => (limit <=? Z.of_nat (length data))%Z
  | VSparse (Some (_, indptr, _)) _ => (limit <=? last indptr 0)%Z
  | _ => false
  end.
Definition out (separately : option (list attr)) (limit : Z) (ignore : list attr) (av : attr * value) : bool :=
  memb (fst av) ignore || match separately with Some s => memb (fst av) s | None => large limit (snd av) end.
Definition kept separately limit ignore (A : attrs) : attrs := filter (fun av => negb (out separately limit ignore av)) A.
(** The objects that saving visits, down to depth [fuel]; one object may come more than once. *)
Fixpoint visited (fuel : nat) (h : heap) (separately : option (list attr)) (limit : Z) (ignore : list attr) (l : loc) : list loc :=
  match fuel with
  | 0 => []
  | S f => l :: flat_map (fun av => match snd av with VSub l' => visited f h None limit ignore l' | _ => [] end) (kept separately limit ignore (dget_or h l []))
  end.
(** What an attribute should be after loading. *)
Definition expected (separately : option (list attr)) (limit : Z) (ignore : list attr) (h : heap) (l : loc) (a : attr) : option value :=
  match at_ h l a with
  | None => None
  | Some v =>
    if memb a ignore then Some VNone
    else if out separately limit ignore (a, v) then
      match v with
      | VArr [] d => Some (VArr [1] d)
      | VArr _ _ | VSparse _ _ => Some v
      | _ => Some VNone
      end
    else Some v
  end.
(** The attribute names of the visited objects contain no dot, and the four names are not used for anything else. *)
Definition good_names (separately : option (list attr)) (ignore : list attr) (h : heap) (ls : list loc) : Prop :=
  (forall n a v, In n ls -> at_ h n a = Some v -> ~ In 46%N a /\ (book a -> exists ns, v = VNames ns)) /\
  (forall a, book a -> ~ In a ignore /\ match separately with Some s => ~ In a s | None => True end).
