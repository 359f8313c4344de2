(** Shared vocabulary of the model: exceptions as values, Python dicts,
    stable sorting, and small list facts.

    Nothing in this file is specific to one gensim module.  It fixes how the
    Python built-ins used by the modelled code are represented. *)

From Coq Require Export List Bool Arith ZArith NArith Lia Permutation Sorted.
From Coq Require Import ZifyBool ZifyNat ZifyN.
Export ListNotations.
Global Set Asymmetric Patterns.

(** ** Exceptions as values *)

Inductive exn : Type :=
| KeyError | IndexError | ValueError | TypeError | RuntimeErr
| EOFErr | AttributeErr | NotImplErr | OSErr | AssertionErr | UnboundLocalErr
| OverflowErr | UnicodeErr | StopIter | ZeroDivErr | DeprecationErr.

Inductive result (A : Type) : Type :=
| Ok (a : A)
| Err (e : exn).
Arguments Ok {A} a.
Arguments Err {A} e.

Definition rbind {A B : Type} (r : result A) (f : A -> result B) : result B :=
  match r with Ok a => f a | Err e => Err e end.

Definition rmap {A B : Type} (f : A -> B) (r : result A) : result B :=
  match r with Ok a => Ok (f a) | Err e => Err e end.

Notation "'let*' x ':=' r 'in' k" :=
  (rbind r (fun x => k)) (at level 200, x pattern, r at level 100, k at level 200).

Definition of_option {A : Type} (e : exn) (o : option A) : result A :=
  match o with Some a => Ok a | None => Err e end.

(** Run a fallible function over a list, stopping at the first exception. *)
Fixpoint rmapM {A B : Type} (f : A -> result B) (l : list A) : result (list B) :=
  match l with
  | [] => Ok []
  | x :: l' => let* y := f x in let* ys := rmapM f l' in Ok (y :: ys)
  end.

(** Fallible left fold: a Python [for] loop whose body may raise. *)
Fixpoint rfold {A S : Type} (f : S -> A -> result S) (l : list A) (s : S) : result S :=
  match l with
  | [] => Ok s
  | x :: l' => let* s' := f s x in rfold f l' s'
  end.

(** ** Decidable equality *)

Class EqDec (A : Type) : Type := eq_dec : forall x y : A, {x = y} + {x <> y}.
Global Instance EqDec_nat : EqDec nat := Nat.eq_dec.
Global Instance EqDec_N : EqDec N := N.eq_dec.
Global Instance EqDec_Z : EqDec Z := Z.eq_dec.
Global Instance EqDec_bool : EqDec bool := Bool.bool_dec.
Global Instance EqDec_list {A} `{EqDec A} : EqDec (list A) := list_eq_dec eq_dec.
Global Instance EqDec_prod {A B} `{EqDec A} `{EqDec B} : EqDec (A * B).
Proof. intros [a b] [c d]. destruct (eq_dec a c); destruct (eq_dec b d); subst; auto; right; congruence. Defined.
Global Instance EqDec_option {A} `{EqDec A} : EqDec (option A).
Proof. intros [a|] [b|]; try (right; congruence); try (left; congruence).
  destruct (eq_dec a b); [left; congruence | right; congruence]. Defined.

Definition eqb {A : Type} `{EqDec A} (x y : A) : bool := if eq_dec x y then true else false.

Lemma eqb_true : forall {A} `{EqDec A} (x y : A), eqb x y = true <-> x = y.
Proof. intros; unfold eqb; destruct (eq_dec x y); split; congruence. Qed.
Lemma eqb_false : forall {A} `{EqDec A} (x y : A), eqb x y = false <-> x <> y.
Proof. intros; unfold eqb; destruct (eq_dec x y); split; congruence. Qed.
Lemma eqb_refl : forall {A} `{EqDec A} (x : A), eqb x x = true.
Proof. intros; apply eqb_true; reflexivity. Qed.

Definition memb {A : Type} `{EqDec A} (x : A) (l : list A) : bool :=
  if in_dec eq_dec x l then true else false.

Lemma memb_true : forall {A} `{EqDec A} (x : A) l, memb x l = true <-> In x l.
Proof. intros; unfold memb; destruct (in_dec eq_dec x l); split; congruence || tauto. Qed.
Lemma memb_false : forall {A} `{EqDec A} (x : A) l, memb x l = false <-> ~ In x l.
Proof. intros; unfold memb; destruct (in_dec eq_dec x l); split; try congruence; tauto. Qed.

(** ** Python dict: insertion-ordered association list, one entry per key *)

Definition dict (K V : Type) : Type := list (K * V).

Section Dict.
  Context {K V : Type} `{EqDec K}.
  Implicit Types (d : dict K V) (k : K) (v : V).

  (** [d.get(k)] *)
  Fixpoint dget d k : option V :=
    match d with
    | [] => None
    | (k', v) :: d' => if eq_dec k' k then Some v else dget d' k
    end.

  (** [d[k] = v]: overwrite in place or append at the end *)
  Fixpoint dset d k v : dict K V :=
    match d with
    | [] => [(k, v)]
    | (k', v') :: d' => if eq_dec k' k then (k', v) :: d' else (k', v') :: dset d' k v
    end.

  (** [del d[k]] for a present key (no effect otherwise) *)
  Fixpoint ddel d k : dict K V :=
    match d with
    | [] => []
    | (k', v') :: d' => if eq_dec k' k then d' else (k', v') :: ddel d' k
    end.

  Definition dkeys d : list K := map fst d.
  Definition dvals d : list V := map snd d.
  Definition dmem d k : bool := match dget d k with Some _ => true | None => false end.
  (** [d.get(k, default)] *)
  Definition dget_or d k (v : V) : V := match dget d k with Some x => x | None => v end.
  (** [{k: v for k, v in l}] / [dict(l)] *)
  Definition dict_of (l : list (K * V)) : dict K V :=
    fold_left (fun d kv => dset d (fst kv) (snd kv)) l [].

  Lemma dget_In : forall d k v, dget d k = Some v -> In (k, v) d.
  Proof.
    induction d as [|[k' v'] d IH]; simpl; intros k v E; [discriminate|].
    destruct (eq_dec k' k); [inversion E; subst; auto | auto].
  Qed.

  Lemma dget_None : forall d k, dget d k = None <-> ~ In k (dkeys d).
  Proof.
    induction d as [|[k' v'] d IH]; simpl; intros k; [tauto|].
    destruct (eq_dec k' k); [split; [discriminate | subst; tauto] |].
    rewrite IH; tauto.
  Qed.

  Lemma dget_Some_key : forall d k, (exists v, dget d k = Some v) <-> In k (dkeys d).
  Proof.
    intros d k. destruct (dget d k) as [v|] eqn:E.
    - split; [intros _; apply dget_In in E; apply in_map_iff; exists (k, v); auto | eauto].
    - split; [intros [v Ev]; discriminate | intros HI; apply dget_None in E; tauto].
  Qed.

  Lemma dmem_true : forall d k, dmem d k = true <-> In k (dkeys d).
  Proof.
    intros; unfold dmem; rewrite <- dget_Some_key; destruct (dget d k); split; eauto; try congruence.
    intros [v E]; congruence.
  Qed.
  Lemma dmem_false : forall d k, dmem d k = false <-> ~ In k (dkeys d).
  Proof. intros; rewrite <- dmem_true; destruct (dmem d k); split; congruence. Qed.

  Lemma In_dget : forall d k v, NoDup (dkeys d) -> In (k, v) d -> dget d k = Some v.
  Proof.
    induction d as [|[k' v'] d IH]; simpl; intros k v ND HI; [tauto|].
    inversion ND; subst. destruct HI as [E|HI].
    - inversion E; subst; destruct (eq_dec k k); congruence.
    - destruct (eq_dec k' k); [subst; exfalso; apply H2; apply in_map_iff; exists (k, v); auto | auto].
  Qed.

  Lemma dget_iff : forall d k v, NoDup (dkeys d) -> (dget d k = Some v <-> In (k, v) d).
  Proof. intros; split; [apply dget_In | apply In_dget; auto]. Qed.

  Lemma dget_dset_same : forall d k v, dget (dset d k v) k = Some v.
  Proof.
    induction d as [|[k' v'] d IH]; simpl; intros.
    - destruct (eq_dec k k); congruence.
    - destruct (eq_dec k' k); simpl; destruct (eq_dec k' k); congruence || auto.
  Qed.

  Lemma dget_dset_other : forall d k k' v, k <> k' -> dget (dset d k v) k' = dget d k'.
  Proof.
    induction d as [|[k0 v0] d IH]; simpl; intros.
    - destruct (eq_dec k k'); congruence.
    - destruct (eq_dec k0 k); simpl; destruct (eq_dec k0 k'); congruence || auto.
  Qed.

  Lemma dget_dset : forall d k k' v,
    dget (dset d k v) k' = if eq_dec k k' then Some v else dget d k'.
  Proof.
    intros; destruct (eq_dec k k'); [subst; apply dget_dset_same | apply dget_dset_other; auto].
  Qed.

  Lemma dkeys_dset_in : forall d k v, In k (dkeys d) -> dkeys (dset d k v) = dkeys d.
  Proof.
    induction d as [|[k0 v0] d IH]; simpl; intros; [tauto|].
    destruct (eq_dec k0 k); simpl; [reflexivity|].
    f_equal; apply IH; destruct H0; [contradiction | assumption].
  Qed.

  Lemma dset_notin : forall d k v, ~ In k (dkeys d) -> dset d k v = d ++ [(k, v)].
  Proof.
    induction d as [|[k0 v0] d IH]; simpl; intros; [reflexivity|].
    destruct (eq_dec k0 k); [subst; tauto | f_equal; apply IH; tauto].
  Qed.

  Lemma dkeys_dset_notin : forall d k v, ~ In k (dkeys d) -> dkeys (dset d k v) = dkeys d ++ [k].
  Proof. intros; rewrite dset_notin by auto; unfold dkeys; rewrite map_app; reflexivity. Qed.

  Lemma In_dkeys_dset : forall d k v k', In k' (dkeys (dset d k v)) <-> k = k' \/ In k' (dkeys d).
  Proof.
    intros. destruct (in_dec eq_dec k (dkeys d)).
    - rewrite dkeys_dset_in by auto. split; [auto | intros [->|]; auto].
    - rewrite dkeys_dset_notin by auto. rewrite in_app_iff; simpl; tauto.
  Qed.

  Lemma NoDup_app_one : forall (A : Type) (l : list A) x, NoDup l -> ~ In x l -> NoDup (l ++ [x]).
  Proof.
    induction l; simpl; intros; [constructor; auto|].
    inversion H0; subst. constructor; [rewrite in_app_iff; simpl; intuition subst; tauto | apply IHl; auto].
  Qed.

  Lemma NoDup_dset : forall d k v, NoDup (dkeys d) -> NoDup (dkeys (dset d k v)).
  Proof.
    intros. destruct (in_dec eq_dec k (dkeys d)).
    - rewrite dkeys_dset_in by auto; auto.
    - rewrite dkeys_dset_notin by auto. apply NoDup_app_one; auto.
  Qed.

  Lemma length_dset_notin : forall d k v, ~ In k (dkeys d) -> length (dset d k v) = S (length d).
  Proof. intros; rewrite dset_notin by auto; rewrite app_length; simpl; lia. Qed.
  Lemma length_dset_in : forall d k v, In k (dkeys d) -> length (dset d k v) = length d.
  Proof.
    intros. rewrite <- (map_length fst), <- (map_length fst d).
    change (length (dkeys (dset d k v)) = length (dkeys d)); rewrite dkeys_dset_in; auto.
  Qed.

  Lemma dkeys_ddel_In : forall d k k', NoDup (dkeys d) ->
    (In k' (dkeys (ddel d k)) <-> In k' (dkeys d) /\ k' <> k).
  Proof.
    induction d as [|[k0 v0] d IH]; simpl; intros k k' ND; [tauto|].
    inversion ND; subst. destruct (eq_dec k0 k); simpl.
    - subst. intuition congruence.
    - rewrite IH by auto. intuition congruence.
  Qed.

  Lemma NoDup_ddel : forall d k, NoDup (dkeys d) -> NoDup (dkeys (ddel d k)).
  Proof.
    induction d as [|[k0 v0] d IH]; simpl; intros k ND; [constructor|].
    inversion ND; subst. destruct (eq_dec k0 k); simpl; auto.
    constructor; [rewrite dkeys_ddel_In; tauto | auto].
  Qed.

  Lemma dget_ddel_same : forall d k, NoDup (dkeys d) -> dget (ddel d k) k = None.
  Proof. intros; apply dget_None; rewrite dkeys_ddel_In; tauto. Qed.

  Lemma dget_ddel_other : forall d k k', k <> k' -> dget (ddel d k) k' = dget d k'.
  Proof.
    induction d as [|[k0 v0] d IH]; simpl; intros; [reflexivity|].
    destruct (eq_dec k0 k); simpl; destruct (eq_dec k0 k'); congruence || auto.
  Qed.

  Lemma dict_of_fold : forall l d,
    NoDup (dkeys d ++ map fst l) ->
    fold_left (fun d kv => dset d (fst kv) (snd kv)) l d = d ++ l.
  Proof.
    induction l as [|[k v] l IH]; simpl; intros d ND; [symmetry; apply app_nil_r|].
    pose proof (NoDup_remove _ _ _ ND) as [ND1 NI].
    rewrite dset_notin by (rewrite in_app_iff in NI; tauto).
    rewrite IH; [rewrite <- app_assoc; reflexivity|].
    unfold dkeys; rewrite map_app; simpl; rewrite <- app_assoc; exact ND.
  Qed.

  Lemma dict_of_NoDup : forall l, NoDup (map fst l) -> dict_of l = l.
  Proof. intros; unfold dict_of; rewrite dict_of_fold; auto. Qed.

  Lemma NoDup_dict_of_fold : forall l d, NoDup (dkeys d) ->
    NoDup (dkeys (fold_left (fun d kv => dset d (fst kv) (snd kv)) l d)).
  Proof. induction l; simpl; intros; auto using NoDup_dset. Qed.

  Lemma NoDup_dict_of : forall l, NoDup (dkeys (dict_of l)).
  Proof. intros; apply NoDup_dict_of_fold; constructor. Qed.

  Lemma In_dkeys_fold : forall l d k,
    In k (dkeys (fold_left (fun d kv => dset d (fst kv) (snd kv)) l d)) <->
    In k (dkeys d) \/ In k (map fst l).
  Proof.
    induction l as [|[k0 v0] l IH]; simpl; intros; [tauto|].
    rewrite IH, In_dkeys_dset; tauto.
  Qed.

  Lemma In_dkeys_dict_of : forall l k, In k (dkeys (dict_of l)) <-> In k (map fst l).
  Proof. intros; unfold dict_of; rewrite In_dkeys_fold; simpl; tauto. Qed.

  Lemma dget_app : forall d d' k,
    dget (d ++ d') k = match dget d k with Some v => Some v | None => dget d' k end.
  Proof.
    induction d as [|[k0 v0] d IH]; simpl; intros; [reflexivity|].
    destruct (eq_dec k0 k); auto.
  Qed.

  Lemma length_dkeys : forall d, length (dkeys d) = length d.
  Proof. intros; apply map_length. Qed.
  Lemma length_dvals : forall d, length (dvals d) = length d.
  Proof. intros; apply map_length. Qed.

  Lemma NoDup_dkeys_filter : forall (f : K * V -> bool) d, NoDup (dkeys d) -> NoDup (dkeys (filter f d)).
  Proof.
    induction d as [|[k v] d IH]; simpl; intros ND; [constructor|].
    inversion ND; subst. destruct (f (k, v)); simpl; auto.
    constructor; auto. intros HI; apply H2. apply in_map_iff in HI; destruct HI as [[k' v'] [E HI]].
    simpl in E; subst. apply filter_In in HI. apply in_map_iff; exists (k, v'); tauto.
  Qed.

  Lemma NoDup_dvals_filter : forall (f : K * V -> bool) d, NoDup (dvals d) -> NoDup (dvals (filter f d)).
  Proof.
    induction d as [|[k v] d IH]; simpl; intros ND; [constructor|].
    inversion ND; subst. destruct (f (k, v)); simpl; auto.
    constructor; auto. intros HI; apply H2. apply in_map_iff in HI; destruct HI as [[k' v'] [E HI]].
    simpl in E; subst. apply filter_In in HI. apply in_map_iff; exists (k', v); tauto.
  Qed.

  (** Python [==] on dicts: same keys, same values, order irrelevant *)
  Definition dict_eq d d' : Prop := forall k, dget d k = dget d' k.
End Dict.

Lemma dget_filter_key : forall {K V} `{EqDec K} (f : K -> bool) (d : dict K V) k,
  dget (filter (fun kv => f (fst kv)) d) k = if f k then dget d k else None.
Proof.
  induction d as [|[k0 v0] d IH]; simpl; intros k; [destruct (f k); reflexivity|].
  destruct (f k0) eqn:E; simpl.
  - destruct (eq_dec k0 k); [subst; rewrite E; reflexivity | apply IH].
  - rewrite IH. destruct (eq_dec k0 k); [subst; rewrite E; reflexivity | reflexivity].
Qed.

Lemma dget_map_val : forall {K V W} `{EqDec K} (f : V -> W) (d : dict K V) k,
  dget (map (fun kv => (fst kv, f (snd kv))) d) k = option_map f (dget d k).
Proof.
  induction d as [|[k0 v0] d IH]; simpl; intros; [reflexivity|].
  destruct (eq_dec k0 k); simpl; auto.
Qed.

(** ** Stable sort ([sorted] / [list.sort] in Python are stable) *)

Section Sorting.
  Context {A : Type} (le : A -> A -> bool).

  Fixpoint insert (x : A) (l : list A) : list A :=
    match l with
    | [] => [x]
    | y :: l' => if le x y then x :: y :: l' else y :: insert x l'
    end.

  Fixpoint isort (l : list A) : list A :=
    match l with
    | [] => []
    | x :: l' => insert x (isort l')
    end.

  Lemma Permutation_insert : forall x l, Permutation (x :: l) (insert x l).
  Proof.
    induction l as [|y l IH]; simpl; [auto|].
    destruct (le x y); [auto|].
    eapply perm_trans; [apply perm_swap | constructor; exact IH].
  Qed.

  Lemma Permutation_isort : forall l, Permutation l (isort l).
  Proof.
    induction l as [|x l IH]; simpl; [constructor|].
    eapply perm_trans; [constructor; exact IH | apply Permutation_insert].
  Qed.

  Lemma length_isort : forall l, length (isort l) = length l.
  Proof. intros; apply Permutation_length; apply Permutation_sym; apply Permutation_isort. Qed.

  Lemma In_isort : forall x l, In x (isort l) <-> In x l.
  Proof.
    split; apply Permutation_in; [apply Permutation_sym|]; apply Permutation_isort.
  Qed.

  Hypothesis le_total : forall x y, le x y = true \/ le y x = true.
  Hypothesis le_trans : forall x y z, le x y = true -> le y z = true -> le x z = true.

  Let R x y : Prop := le x y = true.

  Lemma insert_StronglySorted : forall x l, StronglySorted R l -> StronglySorted R (insert x l).
  Proof.
    induction l as [|y l IH]; simpl; intros S; [repeat constructor|].
    inversion S; subst. destruct (le x y) eqn:E.
    - constructor; [assumption|]. constructor; [assumption|].
      eapply Forall_impl; [|eassumption]. intros a Ha; unfold R in *; eauto.
    - constructor; [auto|]. apply Forall_forall. intros a Ha.
      apply Permutation_in with (l' := x :: l) in Ha; [|apply Permutation_sym, Permutation_insert].
      destruct Ha as [<-|Ha]; [destruct (le_total x y); [congruence|assumption]|].
      rewrite Forall_forall in H2; auto.
  Qed.

  Lemma isort_StronglySorted : forall l, StronglySorted R (isort l).
  Proof. induction l; simpl; [constructor | apply insert_StronglySorted; auto]. Qed.

  (** Two sorted permutations coincide when [le] is antisymmetric on them. *)
  Lemma sorted_perm_unique : forall l l',
    (forall x y, In x l -> In y l -> le x y = true -> le y x = true -> x = y) ->
    StronglySorted R l -> StronglySorted R l' -> Permutation l l' -> l = l'.
  Proof.
    induction l as [|x l IH]; intros l' AS S S' P.
    - apply Permutation_nil in P; auto.
    - destruct l' as [|y l']; [apply Permutation_sym, Permutation_nil in P; discriminate|].
      inversion S; inversion S'; subst.
      assert (x = y).
      { assert (Hx : In x (y :: l')) by (eapply Permutation_in; [exact P | simpl; auto]).
        assert (Hy : In y (x :: l)) by (eapply Permutation_in; [apply Permutation_sym; exact P | simpl; auto]).
        destruct Hx as [<-|Hx]; [reflexivity|]. destruct Hy as [->|Hy]; [reflexivity|].
        apply AS; simpl; auto.
        - rewrite Forall_forall in H2; apply H2; auto.
        - rewrite Forall_forall in H6; apply H6; auto. }
      subst y. f_equal. apply IH; auto.
      + intros; apply AS; simpl; auto.
      + eapply Permutation_cons_inv; exact P.
  Qed.

  Lemma isort_sorted_id : forall l, StronglySorted R l -> isort l = l.
  Proof.
    induction l as [|x l IH]; simpl; intros S; [reflexivity|].
    inversion S; subst. rewrite IH by auto. destruct l as [|y l]; simpl; [reflexivity|].
    rewrite Forall_forall in H2. rewrite (H2 y) by (simpl; auto). reflexivity.
  Qed.
End Sorting.

(** Python's [l[:k]] for an arbitrary integer [k]. *)
Definition py_prefix {A : Type} (k : Z) (l : list A) : list A :=
  if (k <? 0)%Z then firstn (Z.to_nat (Z.of_nat (length l) + k)) l
  else firstn (Z.to_nat k) l.

Lemma py_prefix_firstn : forall {A} k (l : list A), exists n, py_prefix k l = firstn n l.
Proof. intros; unfold py_prefix; destruct (k <? 0)%Z; eauto. Qed.

(** ** Small list facts *)

Lemma NoDup_firstn : forall {A} n (l : list A), NoDup l -> NoDup (firstn n l).
Proof.
  induction n; intros l ND; simpl; [constructor|].
  destruct l; [constructor|]. inversion ND; subst. constructor; auto.
  intros HI; apply H1. rewrite <- (firstn_skipn n l). apply in_app_iff; auto.
Qed.

Lemma In_firstn : forall {A} n (l : list A) x, In x (firstn n l) -> In x l.
Proof. intros; rewrite <- (firstn_skipn n l); apply in_app_iff; auto. Qed.

Lemma In_skipn : forall {A} n (l : list A) x, In x (skipn n l) -> In x l.
Proof. intros; rewrite <- (firstn_skipn n l); apply in_app_iff; auto. Qed.

Definition list_sum_nat (l : list nat) : nat := fold_right Nat.add 0 l.

Lemma list_sum_nat_app : forall l l', list_sum_nat (l ++ l') = list_sum_nat l + list_sum_nat l'.
Proof. induction l; simpl; intros; [reflexivity | rewrite IHl; lia]. Qed.

Lemma list_sum_nat_perm : forall l l', Permutation l l' -> list_sum_nat l = list_sum_nat l'.
Proof. induction 1; simpl; lia. Qed.

Lemma Permutation_filter : forall {A} (f : A -> bool) l l', Permutation l l' -> Permutation (filter f l) (filter f l').
Proof.
  induction 1; simpl; auto.
  - destruct (f x); auto.
  - destruct (f x), (f y); auto. constructor.
  - eapply perm_trans; eauto.
Qed.

Lemma StronglySorted_app_inv : forall {A} (R : A -> A -> Prop) l l',
  StronglySorted R (l ++ l') -> StronglySorted R l /\ StronglySorted R l' /\ forall x y, In x l -> In y l' -> R x y.
Proof.
  induction l; simpl; intros l' S; [split; [constructor | split; [assumption | tauto]]|].
  inversion S; subst. apply IHl in H1. destruct H1 as (S1 & S2 & S3).
  rewrite Forall_forall in H2. split; [|split].
  - constructor; [assumption|]. apply Forall_forall. intros; apply H2, in_app_iff; auto.
  - assumption.
  - intros x y [->|HI] Hy; [apply H2, in_app_iff; auto | auto].
Qed.

Lemma StronglySorted_firstn : forall {A} (R : A -> A -> Prop) n l, StronglySorted R l -> StronglySorted R (firstn n l).
Proof. intros A R n l S. rewrite <- (firstn_skipn n l) in S. apply StronglySorted_app_inv in S; tauto. Qed.

Lemma StronglySorted_skipn : forall {A} (R : A -> A -> Prop) n l, StronglySorted R l -> StronglySorted R (skipn n l).
Proof. intros A R n l S. rewrite <- (firstn_skipn n l) in S. apply StronglySorted_app_inv in S; tauto. Qed.
