(** Parameters of metrics. *)
From Verif Require Import Base Str MetricParams_Model.

Section P.
Context {A V : Type} (none : A) (compute : kind -> list A -> V).
(** ** Spec *)
(** what a name was last set to *)
Fixpoint last_set (n : pystr) (settings : list (pystr * A)) : option A :=
  match settings with [] => None | (n', v) :: r => match last_set n r with Some x => Some x | None => if eq_dec n' n then Some v else None end end.
Definition orelse {B} (a b : option B) : option B := match a with Some x => Some x | None => b end.
(** coherence starts each time without model and topics *)
Definition forgotten (k : kind) (n : pystr) : Prop := k = Coherence /\ (n = str "model" \/ n = str "topics").

Lemma dget_set : forall kw (d : dict pystr A) n, dget (fold_left (fun d nv => dset d (fst nv) (snd nv)) kw d) n = orelse (last_set n kw) (dget d n).
Proof.
  induction kw as [|[n' v] kw IH]; intros d n; [reflexivity|]. cbn [fold_left fst snd last_set]. rewrite IH. destruct (last_set n kw); [reflexivity|]. cbn [orelse]. rewrite dget_dset. destruct (eq_dec n' n); reflexivity.
Qed.
Lemma last_set_app : forall n a b, last_set n (a ++ b) = orelse (last_set n b) (last_set n a).
Proof. intros n a b. induction a as [|[n' v] a IH]; cbn [app last_set]; [destruct (last_set n b); reflexivity|]. rewrite IH. destruct (last_set n b); reflexivity. Qed.
Notation get_value := (get_value none compute).
Notation after_calls := (after_calls none compute).
Lemma kind_value : forall m kw, m_kind (snd (get_value m kw)) = m_kind m.
Proof. intros [k d] kw. destruct k; reflexivity. Qed.
Lemma attr_value : forall m kw n, dget (attrs (snd (get_value m kw))) n = orelse (last_set n kw) (match m_kind m with Coherence => if eq_dec (str "topics") n then Some none else if eq_dec (str "model") n then Some none else dget (attrs m) n | _ => dget (attrs m) n end).
Proof.
  intros [k d] kw n. unfold MetricParams_Model.get_value. cbn [snd m_kind attrs]. unfold set_parameters. destruct k; cbn [m_kind attrs]; rewrite dget_set; try reflexivity.
  f_equal. cbn [fold_left fst snd]. rewrite !dget_dset. reflexivity.
Qed.
Lemma calls_kind : forall kws m, m_kind (after_calls m kws) = m_kind m.
Proof. induction kws as [|kw kws IH]; intros m; [reflexivity|]. cbn [MetricParams_Model.after_calls fold_left]. transitivity (m_kind (snd (get_value m kw))); [apply IH | apply kind_value]. Qed.
Lemma calls_attr : forall kws m n, ~ forgotten (m_kind m) n -> dget (attrs (after_calls m kws)) n = orelse (last_set n (concat kws)) (dget (attrs m) n).
Proof.
  induction kws as [|kw kws IH]; intros m n F; [reflexivity|]. cbn [MetricParams_Model.after_calls fold_left concat]. change (fold_left (fun m kw => snd (get_value m kw)) kws (snd (get_value m kw))) with (after_calls (snd (get_value m kw)) kws).
  rewrite IH by (rewrite kind_value; exact F). rewrite attr_value, last_set_app. destruct (last_set n (concat kws)); [reflexivity|]. cbn [orelse]. f_equal. destruct (m_kind m) eqn:K; try reflexivity.
  destruct (eq_dec (str "topics") n) as [<-|_]; [exfalso; apply F; split; auto|]. destruct (eq_dec (str "model") n) as [<-|_]; [exfalso; apply F; split; auto | reflexivity].
Qed.
(** what an attribute is when a value is computed *)
Definition seen (k : kind) (args : list A) (kws : list (list (pystr * A))) (kw : list (pystr * A)) (n : pystr) (o : option A) : Prop :=
  (forgotten k n /\ o = Some (match last_set n kw with Some v => v | None => none end)) \/ (~ forgotten k n /\ o = last_set n (combine (fields k) args ++ concat kws ++ kw)).
Lemma seen_attr : forall k args kws kw n, seen k args kws kw n (dget (attrs (snd (get_value (after_calls (construct k args) kws) kw))) n).
Proof.
  intros k args kws kw n. assert (KC : m_kind (construct k args) = k) by reflexivity. assert (D : {forgotten k n} + {~ forgotten k n}).
  { unfold forgotten. destruct k; try (right; intros [X _]; discriminate X). destruct (eq_dec n (str "model")) as [->|N1]; [left; auto|]. destruct (eq_dec n (str "topics")) as [->|N2]; [left; auto|]. right. intros [_ [X|X]]; contradiction. }
  destruct D as [F|F]; [left | right]; (split; [exact F|]); rewrite attr_value, calls_kind, KC.
  - destruct F as [-> [-> | ->]]; destruct (last_set _ kw); reflexivity.
  - rewrite !last_set_app. assert (X : (match k with Coherence => if eq_dec (str "topics") n then Some none else if eq_dec (str "model") n then Some none else dget (attrs (after_calls (construct k args) kws)) n | _ => dget (attrs (after_calls (construct k args) kws)) n end) = dget (attrs (after_calls (construct k args) kws)) n).
    { destruct k; try reflexivity. destruct (eq_dec (str "topics") n) as [<-|_]; [exfalso; apply F; split; auto|]. destruct (eq_dec (str "model") n) as [<-|_]; [exfalso; apply F; split; auto | reflexivity]. }
    rewrite X, calls_attr by (rewrite KC; exact F). unfold construct, set_parameters. cbn [attrs m_kind]. rewrite dget_set. cbn [dget]. destruct (last_set n kw), (last_set n (concat kws)), (last_set n (combine (fields k) args)); reflexivity.
Qed.
(** A value is computed from what each attribute was last set to, by the constructor or by any call; coherence takes model and topics from the call itself. *)
Theorem metric_value : forall k args kws kw v, fst (get_value (after_calls (construct k args) kws) kw) = Ok v -> exists vs, v = compute k vs /\ Forall2 (fun n x => seen k args kws kw n (Some x)) (reads k) vs.
Proof.
  intros k args kws kw v H. assert (S := seen_attr k args kws kw). unfold MetricParams_Model.get_value in H. cbn [fst] in H.
  assert (E : forall m, m_kind (set_parameters (match m_kind m with Coherence => set_parameters m [(str "model", none); (str "topics", none)] | _ => m end) kw) = m_kind m) by (intros [[] d]; reflexivity).
  rewrite E, calls_kind in H. unfold MetricParams_Model.get_value in S. cbn [snd] in S. rewrite calls_kind in S. change (m_kind (construct k args)) with k in H. change (m_kind (construct k args)) with k in S.
  match type of H with context [rmapM ?f ?l] => destruct (rmapM f l) as [vs|] eqn:R end; [|discriminate H]. cbn [rbind] in H. injection H as <-. exists vs. split; [reflexivity|].
  revert vs R. induction (reads k) as [|n ns IH]; intros vs R; cbn [rmapM] in R; [injection R as <-; constructor|].
  match type of R with context [of_option _ ?o] => destruct o as [x|] eqn:Ex end; [|discriminate R]. cbn [of_option rbind] in R. match type of R with context [rmapM ?f ?l] => destruct (rmapM f l) as [xs|] eqn:Rx end; [|discriminate R]. injection R as <-. constructor; [|apply IH; reflexivity]. rewrite <- Ex. apply S.
Qed.
(** It fails just when some attribute has never been set. *)
Theorem metric_fails : forall k args kws kw, (exists n, In n (reads k) /\ seen k args kws kw n None) <-> fst (get_value (after_calls (construct k args) kws) kw) = Err AttributeErr.
Proof.
  intros k args kws kw. assert (S := seen_attr k args kws kw). assert (U : forall n o1 o2, seen k args kws kw n o1 -> seen k args kws kw n o2 -> o1 = o2) by (intros n o1 o2 [[F1 ->]|[F1 ->]] [[F2 ->]|[F2 ->]]; (reflexivity || contradiction)).
  unfold MetricParams_Model.get_value in *. cbn [fst snd] in *.
  assert (E : forall m, m_kind (set_parameters (match m_kind m with Coherence => set_parameters m [(str "model", none); (str "topics", none)] | _ => m end) kw) = m_kind m) by (intros [[] d]; reflexivity).
  rewrite E, calls_kind. rewrite calls_kind in S. change (m_kind (construct k args)) with k. change (m_kind (construct k args)) with k in S. split.
  - intros (n & I & Sn). match goal with |- context [rmapM ?f ?l] => assert (X : rmapM f l = Err AttributeErr) end; [|rewrite X; reflexivity].
    revert I. induction (reads k) as [|n' ns IH]; intros I; [destruct I|]. cbn [rmapM]. match goal with |- context [of_option _ ?o] => destruct o as [x|] eqn:Ex end; [|reflexivity]. cbn [of_option rbind]. destruct I as [->|I]; [|rewrite IH by exact I; reflexivity].
    exfalso. pose proof (U n _ _ Sn (S n)) as Y. rewrite Ex in Y. discriminate Y.
  - intros H. match type of H with context [rmapM ?f ?l] => destruct (rmapM f l) as [vs|] eqn:R end; [discriminate H|]. clear H. induction (reads k) as [|n ns IH]; cbn [rmapM] in R; [discriminate R|].
    match type of R with context [of_option _ ?o] => destruct o as [x|] eqn:Ex end.
    + cbn [of_option rbind] in R. match type of R with context [rmapM ?f ?l] => destruct (rmapM f l) as [xs|] eqn:Rx end; [discriminate R|]. injection R as <-. destruct (IH eq_refl) as (n' & I & Sn). exists n'. split; [right; exact I | exact Sn].
    + exists n. split; [left; reflexivity|]. rewrite <- Ex. apply S.
Qed.
End P.
Print Assumptions metric_value.
Print Assumptions metric_fails.

(** ** Examples *)
Definition value (m : metric nat) (kw : list (pystr * nat)) : result (list nat) := fst (get_value 0 (fun _ vs => vs) m kw).
Definition calls (m : metric nat) (kws : list (list (pystr * nat))) : metric nat := after_calls 0 (fun _ vs => vs) m kws.
Example perplexity_example : value (construct Perplexity [7; 1; 1; 1]) [(str "topics", 3); (str "model", 5)] = Ok [7; 5] /\ value (construct Perplexity [7; 1; 1; 1]) [] = Err AttributeErr.
Proof. vm_compute. auto. Qed.
Example coherence_example : value (calls (construct Coherence [1; 2; 3; 4; 5; 6; 1; 1; 1]) [[(str "model", 9)]; [(str "topics", 8); (str "topn", 10)]]) [(str "model", 11)] = Ok [11; 0; 2; 1; 3; 5; 4; 10].
Proof. vm_compute. reflexivity. Qed.
(** Violation: what a call overrides stays overridden; a value can be of the model of an earlier call. *)
Theorem override_stays_refuted : exists m kw, value m [(str "model", 5)] = Ok [7; 5] /\ value (calls m [kw]) [(str "model", 5)] = Ok [8; 5] /\ kw = [(str "corpus", 8); (str "model", 4)] /\ value (calls m [kw]) [] = Ok [8; 4].
Proof. exists (construct Perplexity [7; 1; 1; 1]), [(str "corpus", 8); (str "model", 4)]. vm_compute. auto. Qed.
Print Assumptions override_stays_refuted.
