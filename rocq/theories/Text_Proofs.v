(** Proofs about the pattern matcher of [Text_Model]. *)
From Coq Require Import ZifyBool ZifyNat ZifyN.
From Verif Require Import Base Str Porter_Model Text_Model.
Local Open Scope nat_scope.

(** ** Runs *)
Fixpoint takew (f : N -> bool) (s : pystr) : pystr := match s with [] => [] | c :: s' => if f c then c :: takew f s' else [] end.
Fixpoint dropw (f : N -> bool) (s : pystr) : pystr := match s with [] => [] | c :: s' => if f c then dropw f s' else s end.
Definition starts (f : N -> bool) (s : pystr) : bool := match s with [] => false | c :: _ => f c end.

Lemma take_drop : forall f s, takew f s ++ dropw f s = s.
Proof. induction s as [|c s IH]; [reflexivity|]. cbn. destruct (f c); [cbn; f_equal; exact IH | reflexivity]. Qed.
Lemma takew_all : forall f s, Forall (fun c => f c = true) (takew f s).
Proof. induction s as [|c s IH]; cbn; [constructor|]. destruct (f c) eqn:E; constructor; assumption. Qed.
Lemma dropw_stop : forall f s, starts f (dropw f s) = false.
Proof. induction s as [|c s IH]; cbn; [reflexivity|]. destruct (f c) eqn:E; [exact IH | exact E]. Qed.
Lemma dropw_length : forall f s, length (dropw f s) <= length s.
Proof. induction s as [|c s IH]; cbn; [lia|]. destruct (f c); cbn; lia. Qed.
Lemma takew_app : forall f a b, Forall (fun c => f c = true) a -> starts f b = false -> takew f (a ++ b) = a /\ dropw f (a ++ b) = b.
Proof.
  intros f a b F B. induction F as [|c a Hc F IH]; cbn [app takew dropw].
  - destruct b as [|d b]; [split; reflexivity|]. cbn in B. cbn. rewrite B. split; reflexivity.
  - rewrite Hc. destruct IH as [-> ->]. split; reflexivity.
Qed.
Lemma run_take : forall f s, run f None s = length (takew f s) /\ firstn (run f None s) s = takew f s /\ skipn (run f None s) s = dropw f s.
Proof. induction s as [|c s IH]; [repeat split|]. cbn. destruct (f c); [|repeat split]. destruct IH as (A & B & C). cbn. rewrite A in *. rewrite B, C. repeat split. Qed.
Lemma run_one : forall f s, run f (Some 1) s = if starts f s then 1 else 0.
Proof. intros f [|c s]; [reflexivity|]. cbn. destruct (f c); [|reflexivity]. destruct s; reflexivity. Qed.

(** ** Matching one item before the rest of a pattern *)
Lemma pmatch_cons : forall i p s, pmatch (i :: p) s =
  (fix try (k : nat) : option (list pystr) :=
     if k <? ilo i then None else
     match pmatch p (skipn k s) with
     | Some gs => Some (firstn k s :: gs)
     | None => match k with 0 => None | S k' => try k' end
     end) (run (icls i) (ihi i) s).
Proof. reflexivity. Qed.
Lemma pmatch_one : forall f p s, pmatch (one f :: p) s = match s with c :: s' => if f c then option_map (fun gs => [c] :: gs) (pmatch p s') else None | [] => None end.
Proof.
  intros f p s. rewrite pmatch_cons. cbn [one icls ihi ilo]. rewrite run_one. destruct s as [|c s]; [reflexivity|]. cbn [starts]. destruct (f c); [|reflexivity]. cbn. destruct (pmatch p s); reflexivity.
Qed.
Lemma pmatch_maybe : forall f p s, pmatch (maybe f :: p) s =
  match s with
  | c :: s' => if f c then match pmatch p s' with Some gs => Some ([c] :: gs) | None => option_map (fun gs => [] :: gs) (pmatch p s) end else option_map (fun gs => [] :: gs) (pmatch p s)
  | [] => option_map (fun gs => [] :: gs) (pmatch p [])
  end.
Proof.
  intros f p s. rewrite pmatch_cons. cbn [maybe icls ihi ilo]. rewrite run_one. destruct s as [|c s]; [cbn; destruct (pmatch p []); reflexivity|]. cbn [starts]. destruct (f c); cbn; [destruct (pmatch p s); [reflexivity|]|]; destruct (pmatch p (c :: s)); reflexivity.
Qed.
(** A run that ends before what can follow it: no use in giving back. *)
Lemma pmatch_run : forall f lo hi p s k, run f hi s = k -> (forall j, j < k -> pmatch p (skipn j s) = None) ->
  pmatch (mkItem f lo hi :: p) s = if k <? lo then None else option_map (fun gs => firstn k s :: gs) (pmatch p (skipn k s)).
Proof.
  intros f lo hi p s k Hk H. rewrite pmatch_cons. cbn [icls ihi ilo]. rewrite Hk. clear Hk. destruct k as [|k]; [destruct (0 <? lo); [reflexivity|]; cbn; destruct (pmatch p s); reflexivity|].
  destruct (S k <? lo); [reflexivity|]. destruct (pmatch p (skipn (S k) s)); [reflexivity|]. cbn [option_map]. assert (Q : forall j, j <= k -> (fix try (k0 : nat) : option (list pystr) := if k0 <? lo then None else match pmatch p (skipn k0 s) with Some gs => Some (firstn k0 s :: gs) | None => match k0 with 0 => None | S k' => try k' end end) j = None).
  { induction j as [|j IH]; intros L; [destruct (0 <? lo); [reflexivity|]; rewrite (H 0) by lia; reflexivity|]. destruct (S j <? lo); [reflexivity|]. rewrite (H (S j)) by lia. apply IH. lia. }
  apply Q. lia.
Qed.
Lemma skip_in_run : forall f s j, j < length (takew f s) -> exists c t, skipn j s = c :: t /\ f c = true.
Proof. intros f. induction s as [|c s IH]; intros j L; [cbn in L; lia|]. cbn in L. destruct (f c) eqn:E; [|cbn in L; lia]. destruct j as [|j]; [exists c, s; auto|]. cbn in L. cbn [skipn]. apply IH. lia. Qed.
Lemma pmatch_plus_end : forall f s, pmatch [plus f] s = if starts f s then Some [takew f s] else None.
Proof.
  intros f s. rewrite pmatch_cons. cbn [plus icls ihi ilo]. destruct (run_take f s) as (A & B & C). rewrite <- B, A. destruct s as [|c s]; [reflexivity|]. cbn [starts takew]. destruct (f c); reflexivity.
Qed.
Lemma pmatch_plus : forall f g p s, (forall c, f c = true -> g c = true -> False) -> (forall s, starts g s = false -> pmatch p s = None) ->
  pmatch (plus f :: p) s = if starts f s then option_map (fun gs => takew f s :: gs) (pmatch p (dropw f s)) else None.
Proof.
  intros f g p s D N. destruct (run_take f s) as (A & B & C). unfold plus. rewrite (pmatch_run f 1 None p s (length (takew f s)) A).
  - rewrite <- A, B, C. rewrite A. destruct s as [|c s]; [reflexivity|]. cbn [starts takew]. destruct (f c); reflexivity.
  - intros j L. destruct (skip_in_run f s j L) as (c & t & E & Hc). rewrite E. apply N. cbn. destruct (g c) eqn:G; [|reflexivity]. destruct (D c Hc G).
Qed.

(** ** Substitution *)
Lemma rsub_skip : forall p rep k s, rsub_from p rep k s = rsub p rep (skipn k s).
Proof. intros p rep. induction k as [|k IH]; intros s; [reflexivity|]. destruct s as [|c s]; [reflexivity|]. cbn [rsub_from skipn]. apply IH. Qed.
Lemma rsub_nil : forall p rep, rsub p rep [] = [].
Proof. reflexivity. Qed.
Lemma rsub_step : forall p rep c s, rsub p rep (c :: s) =
  match pmatch p (c :: s) with
  | Some gs => rep gs ++ rsub p rep (skipn (length (concat gs) - 1) s)
  | None => c :: rsub p rep s
  end.
Proof. intros p rep c s. unfold rsub at 1. cbn [rsub_from]. destruct (pmatch p (c :: s)); [rewrite rsub_skip|]; reflexivity. Qed.
Lemma finditer_skip : forall p k s, finditer_from p k s = finditer p (skipn k s).
Proof. intros p. induction k as [|k IH]; intros s; [reflexivity|]. destruct s as [|c s]; [reflexivity|]. cbn [finditer_from skipn]. apply IH. Qed.

(** One class, repeated *)
Lemma skip_take : forall f c s, f c = true -> skipn (length (takew f (c :: s)) - 1) s = dropw f s.
Proof. intros f c s H. cbn [takew]. rewrite H. cbn [length]. replace (S (length (takew f s)) - 1) with (length (takew f s)) by lia. destruct (run_take f s) as (A & _ & C). rewrite <- A. exact C. Qed.
Lemma rsub_plus : forall f rep c s, rsub [plus f] rep (c :: s) = if f c then rep [takew f (c :: s)] ++ rsub [plus f] rep (dropw f s) else c :: rsub [plus f] rep s.
Proof.
  intros f rep c s. rewrite rsub_step, pmatch_plus_end. cbn [starts]. destruct (f c) eqn:E; [|reflexivity]. cbn [concat]. rewrite app_nil_r, skip_take by exact E. reflexivity.
Qed.
Lemma finditer_plus : forall f c s, finditer [plus f] (c :: s) = if f c then takew f (c :: s) :: finditer [plus f] (dropw f s) else finditer [plus f] s.
Proof.
  intros f c s. unfold finditer at 1. cbn [finditer_from]. rewrite pmatch_plus_end. cbn [starts]. destruct (f c) eqn:E; [|reflexivity]. cbn [concat]. rewrite app_nil_r, finditer_skip, skip_take by exact E. reflexivity.
Qed.
Lemma rsub_one : forall f rep s, rsub [one f] rep s = concat (map (fun c => if f c then rep [[c]] else [c]) s).
Proof.
  intros f rep. induction s as [|c s IH]; [reflexivity|]. rewrite rsub_step, pmatch_one. cbn [pmatch map concat option_map]. destruct (f c); [|cbn; f_equal; exact IH]. cbn [concat app length Nat.sub skipn]. rewrite IH. reflexivity.
Qed.
(** Induction over a text from which runs are dropped *)
Lemma drop_ind : forall P : pystr -> Prop, P [] -> (forall c s, (forall t, length t <= length s -> P t) -> P (c :: s)) -> forall s, P s.
Proof.
  intros P H0 H1 s. assert (Q : forall n s, length s <= n -> P s); [|exact (Q (length s) s (le_n _))]. induction n as [|n IH]; intros t L; [destruct t; [exact H0 | cbn in L; lia]|]. destruct t as [|c t]; [exact H0|]. apply H1. intros u Lu. apply IH. cbn in L. lia.
Qed.
Lemma filter_drop : forall f s, filter (fun c => negb (f c)) (dropw f s) = filter (fun c => negb (f c)) s.
Proof. induction s as [|c s IH]; [reflexivity|]. cbn. destruct (f c) eqn:E; cbn; [exact IH|]. rewrite E. reflexivity. Qed.
