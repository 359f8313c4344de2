(** C137: the calls that build and train a model *)
From Coq Require Import QArith.
From Verif Require Import Base Str W2vSession_Model.
Close Scope Q_scope.
Local Open Scope nat_scope.

(** ** Specification *)
(** Exactly one of the two ways to give sentences is used, and it can be read as many times as is needed. *)
Definition readable (c : corpus) (f : file) (passes : Z) : Prop :=
  (exists l, c = NoCorpus /\ f = File l) \/ (f = NoFile /\ ((exists l, c = Again l) \/ (exists l, c = Once false l) \/ (exists l, c = Once true l /\ (passes <= 1)%Z))).
Definition ready (m : model) : Prop := m_vocab m <> [] /\ m_rows m <> 0.
Definition told (a : args) : Prop := (a_examples a <> None \/ a_words a <> None) /\ exists e, a_epochs a = Some e /\ (1 <= e)%Z.
Definition given (a : args) : Z := match a_epochs a with Some e => e | None => 0%Z end.
(** The sentences of the passes *)
Definition passes_of (c : corpus) (f : file) (n : nat) : list (list sentence) :=
  match c, f with
  | NoCorpus, File l => repeat l n
  | Again l, _ => repeat l n
  | Once _ l, _ => firstn n (l :: repeat [] n)
  | _, _ => repeat [] n
  end.
Definition all (callbacks : nat) (e : nat -> event) : list event := map e (seq 0 callbacks).
Definition session (callbacks : nat) (passes : list (list sentence)) : list event :=
  all callbacks TrainBegin ++ concat (map (fun l => all callbacks EpochBegin ++ Read l :: all callbacks EpochEnd) passes) ++ all callbacks TrainEnd.
Definition r_of (o : outcome) : result unit := fst (fst (fst o)).
Definition m_of (o : outcome) : model := snd (fst (fst o)).
Definition c_of (o : outcome) : corpus := snd (fst o).
Definition e_of (o : outcome) : list event := snd o.

(** ** Lemmas *)
Lemma check_corpus_iff : forall c f p, (check_corpus c f p = Ok tt <-> readable c f p) /\ (check_corpus c f p <> Ok tt -> check_corpus c f p = Err TypeError).
Proof.
  intros c f p. unfold readable. destruct c as [| |l|[|] l], f as [| |l']; cbn [check_corpus]; try destruct (Z.ltb_spec 1 p) as [L|L];
  (split; [split; [intros E; try discriminate E|intros [(x & A & B)|(A & [(x & B)|[(x & B)|(x & B & C)]])]; try discriminate A; try discriminate B; try reflexivity; try lia] | intros N; congruence || reflexivity]); eauto 10.
Qed.
Lemma epochs_spec : forall k f n c p, readable c f p -> epochs_of k f n c = (concat (map (fun l => all k EpochBegin ++ Read l :: all k EpochEnd) (passes_of c f n)), snd (epochs_of k f n c)).
Proof.
  intros k f n c p R. assert (G : forall n c, ((exists l, c = NoCorpus /\ f = File l) \/ (f = NoFile /\ ((exists l, c = Again l) \/ exists g l, c = Once g l))) -> fst (epochs_of k f n c) = concat (map (fun l => all k EpochBegin ++ Read l :: all k EpochEnd) (passes_of c f n))).
  { clear n c R. induction n as [|n IH]; intros c H.
    - cbn. destruct H as [(l & -> & ->)|(-> & [(l & ->)|(g & l & ->)])]; reflexivity.
    - cbn [epochs_of]. destruct H as [(l & -> & ->)|(-> & [(l & ->)|(g & l & ->)])]; cbn [read].
      + specialize (IH NoCorpus ltac:(left; eauto)). destruct (epochs_of k (File l) n NoCorpus) as [rest c'']. cbn [fst] in *. rewrite IH. cbn [passes_of repeat map concat]. rewrite <- app_assoc. reflexivity.
      + specialize (IH (Again l) ltac:(right; eauto)). destruct (epochs_of k NoFile n (Again l)) as [rest c'']. cbn [fst] in *. rewrite IH. cbn [passes_of repeat map concat]. rewrite <- app_assoc. reflexivity.
      + specialize (IH (Once g []) ltac:(right; split; [reflexivity|right; eauto])). destruct (epochs_of k NoFile n (Once g [])) as [rest c'']. cbn [fst] in *. rewrite IH.
        assert (P : firstn n ([] :: repeat [] n) = (repeat [] n : list (list sentence))). { change ([] :: repeat [] n) with (repeat ([] : list sentence) (S n)). clear. induction n; [reflexivity|]. cbn [repeat firstn] in *. f_equal. exact IHn. }
        assert (P' : firstn n (repeat ([] : list sentence) (S n)) = repeat [] n) by exact P. cbn [passes_of firstn]. rewrite P, P'. cbn [map concat]. rewrite <- app_assoc. reflexivity. }
  rewrite (surjective_pairing (epochs_of k f n c)) at 1. f_equal. apply G. destruct R as [R|(-> & [R|[(l & ->)|(l & -> & _)]])]; eauto 10.
Qed.
Lemma check_training_iff : forall m a, (check_training m (a_epochs a) (a_examples a) (a_words a) = Ok tt <-> ready m /\ told a) /\
  (~ ready m -> check_training m (a_epochs a) (a_examples a) (a_words a) = Err RuntimeErr) /\ (ready m -> ~ told a -> check_training m (a_epochs a) (a_examples a) (a_words a) = Err ValueError).
Proof.
  intros m a. unfold check_training, ready, told. destruct (m_vocab m) as [|w v].
  { split; [split; [discriminate | intros ((H & _) & _); contradiction]|]. split; [reflexivity | intros (H & _); contradiction]. }
  destruct (Nat.eqb_spec (m_rows m) 0) as [E|E].
  { split; [split; [discriminate | intros ((_ & H) & _); contradiction]|]. split; [reflexivity | intros (_ & H); contradiction]. }
  assert (R : w :: v <> [] /\ m_rows m <> 0) by (split; [discriminate | exact E]).
  destruct (a_words a) as [x|] eqn:Ew, (a_examples a) as [y|] eqn:Ee;
  try (split; [split; [discriminate | intros (_ & [H|H] & _); contradiction]|]; split; [intros N; contradiction | reflexivity]);
  (destruct (a_epochs a) as [e|]; [destruct (Z.leb_spec e 0) as [L|L]|]);
  try (split; [split; [discriminate | intros (_ & _ & e' & [= <-] & H); lia]|]; split; [intros N; contradiction | reflexivity]);
  try (split; [split; [discriminate | intros (_ & _ & e' & H & _); discriminate H]|]; split; [intros N; contradiction | reflexivity]);
  (split; [split; [intros _; split; [exact R|]; split; [first [left; discriminate | right; discriminate]|]; exists e; split; [reflexivity | lia] | reflexivity]|]; split; [intros N; contradiction|]; intros _ N; exfalso; apply N; split; [first [left; discriminate | right; discriminate] | exists e; split; [reflexivity | lia]]).
Qed.

(** ** Training *)
(** A call of train is accepted exactly if there is a vocabulary with vectors, a number of examples or words and a positive number of epochs are given, and the
    sentences can be read that often; then every epoch reads the sentences (all of them, unless they can only be read once), between the calls of the callbacks. *)
Theorem train_accepts : forall (k : nat) (m : model) (c : corpus) (f : file) (a : args),
  (r_of (train k m c f a) = Ok tt <-> ready m /\ told a /\ readable c f (given a)) /\
  (r_of (train k m c f a) = Ok tt -> e_of (train k m c f a) = session k (passes_of c f (Z.to_nat (given a))) /\ m_trained (m_of (train k m c f a)) = S (m_trained m) /\
     m_loss (m_of (train k m c f a)) = a_loss a /\ m_vocab (m_of (train k m c f a)) = m_vocab m /\ m_rows (m_of (train k m c f a)) = m_rows m).
Proof.
  intros k m c f a. unfold train. set (m1 := mkModel _ _ _ _ _ _ _ _ _). change (ready m) with (ready m1). pose proof (check_training_iff m1 a) as (T1 & T2 & T3). fold (given a). destruct (check_training m1 _ _ _) as [[]|e] eqn:E.
  - destruct (proj1 T1 eq_refl) as (R & T). destruct (check_corpus_iff c f (given a)) as (C1 & C2). destruct (check_corpus c f (given a)) as [[]|e] eqn:Ec.
    + pose proof (proj1 C1 eq_refl) as Rd. rewrite (epochs_spec k f _ c _ Rd). cbn. split; [split; [intros _; auto | reflexivity]|]. intros _. unfold session. repeat split; reflexivity.
    + cbn. split; [split; [discriminate | intros (_ & _ & H); apply C1 in H; discriminate H] | discriminate].
  - cbn. split; [split; [discriminate | intros (R & T & _); assert (K : Err e = Ok tt) by (apply T1; split; assumption); discriminate K] | discriminate].
Qed.
(** A call that is not accepted reads nothing and calls no callback; it names the first reason. *)
Theorem train_refuses : forall (k : nat) (m : model) (c : corpus) (f : file) (a : args), r_of (train k m c f a) <> Ok tt ->
  e_of (train k m c f a) = [] /\ c_of (train k m c f a) = c /\ m_trained (m_of (train k m c f a)) = m_trained m /\ m_loss (m_of (train k m c f a)) = m_loss m /\
  m_vocab (m_of (train k m c f a)) = m_vocab m /\ m_rows (m_of (train k m c f a)) = m_rows m /\
  (~ ready m -> r_of (train k m c f a) = Err RuntimeErr) /\ (ready m -> ~ told a -> r_of (train k m c f a) = Err ValueError) /\ (ready m -> told a -> r_of (train k m c f a) = Err TypeError).
Proof.
  intros k m c f a. unfold train. set (m1 := mkModel _ _ _ _ _ _ _ _ _). change (ready m) with (ready m1). pose proof (check_training_iff m1 a) as (T1 & T2 & T3). fold (given a). destruct (check_training m1 _ _ _) as [[]|e] eqn:E.
  - destruct (proj1 T1 eq_refl) as (R & T). destruct (check_corpus_iff c f (given a)) as (C1 & C2). destruct (check_corpus c f (given a)) as [[]|e] eqn:Ec.
    + pose proof (proj1 C1 eq_refl) as Rd. rewrite (epochs_spec k f _ c _ Rd). cbn. congruence.
    + intros _. assert (X : Err e = Err TypeError :> result unit) by (apply C2; discriminate). injection X as ->. cbn. do 6 (split; [reflexivity|]). split; [intros N; contradiction|]. split; [intros _ N; contradiction | intros _ _; reflexivity].
  - intros _. cbn. do 6 (split; [reflexivity|]). split; [exact T2|]. split; [exact T3|]. intros R T. assert (K : Err e = Ok tt) by (apply T1; split; assumption). discriminate K.
Qed.
(** Doc2Vec refuses sentences that cannot be read before anything else, and otherwise trains in the same way. *)
Theorem d2v_train_same : forall (k : nat) (m : model) (c : corpus) (f : file) (a : args),
  (readable c f 1 -> d2v_train k m c f a = train k m c f a) /\ (~ readable c f 1 -> d2v_train k m c f a = (Err TypeError, m, c, [])).
Proof.
  intros k m c f a. unfold d2v_train. destruct (check_corpus_iff c f 1) as (C1 & C2). destruct (check_corpus c f 1) as [[]|e] eqn:E.
  - split; [reflexivity | intros N; destruct N; apply C1; reflexivity].
  - split; [intros R; apply C1 in R; discriminate R|]. intros _. assert (X : Err e = Err TypeError :> result unit) by (apply C2; discriminate). injection X as ->. reflexivity.
Qed.
Print Assumptions train_accepts.
Print Assumptions train_refuses.
Print Assumptions d2v_train_same.

Section Build.
Variable nv : bool -> list pystr -> list sentence -> list pystr.
(** ** Building the vocabulary and constructing *)
Definition sentences_of (c : corpus) (f : file) : list sentence := match c, f with NoCorpus, File l => l | Again l, _ => l | Once _ l, _ => l | _, _ => [] end.
Theorem build_exact : forall (u : bool) (m : model) (c : corpus) (f : file), (~ readable c f 1 -> build_vocab nv u m c f = (Err TypeError, m, c, [])) /\
  (readable c f 1 -> let l := sentences_of c f in let o := build_vocab nv u m c f in
   e_of o = [Read l] /\ m_count (m_of o) = length l /\ m_words (m_of o) = list_sum (map (@length _) l) /\ m_vocab (m_of o) = nv u (m_vocab m) l /\
   (r_of o = Ok tt <-> (u = true -> m_rows m <> 0) /\ (m_rows m <= length (m_vocab (m_of o)) \/ m_rows m = 1)) /\ (r_of o = Ok tt -> m_rows (m_of o) = length (m_vocab (m_of o)))).
Proof.
  intros u m c f. unfold build_vocab. destruct (check_corpus_iff c f 1) as (C1 & C2). destruct (check_corpus c f 1) as [[]|e] eqn:E.
  - split; [intros N; destruct N; apply C1; reflexivity|]. intros R. cbv zeta.
    assert (S : exists c', match f with File l => (l, c) | _ => read c end = (sentences_of c f, c')). { destruct R as [(l & -> & ->)|(-> & [(l & ->)|[(l & ->)|(l & -> & _)]])]; eexists; reflexivity. }
    destruct S as (c' & ->). cbv zeta. set (l := sentences_of c f). set (v := nv u (m_vocab m) l).
    assert (W : length (concat l) = list_sum (map (@length _) l)) by (clear; induction l as [|x l IH]; [reflexivity|]; cbn; rewrite app_length, IH; reflexivity).
    destruct (Nat.eqb_spec (m_rows m) 0) as [Z|Z]; destruct u; cbn [andb].
    + cbn. rewrite W. do 4 (split; [reflexivity|]). split; [split; [discriminate | intros (H & _); specialize (H eq_refl); contradiction] | discriminate].
    + unfold prep_rows. rewrite Z. cbn. rewrite W. do 4 (split; [reflexivity|]). split; [split; [intros _; split; [discriminate | left; lia] | reflexivity] | reflexivity].
    + unfold prep_rows. destruct (Nat.ltb_spec (length v) (m_rows m)) as [L|L]; destruct (Nat.eqb_spec (m_rows m) 1) as [O|O]; cbn; rewrite W; do 4 (split; [reflexivity|]); (split; [split; [intros Q; first [discriminate Q | split; [intros _; exact Z | lia]] | intros (_ & H); try reflexivity; lia] | intros Q; try discriminate Q; reflexivity]).
    + unfold prep_rows. destruct (Nat.ltb_spec (length v) (m_rows m)) as [L|L]; destruct (Nat.eqb_spec (m_rows m) 1) as [O|O]; cbn; rewrite W; do 4 (split; [reflexivity|]); (split; [split; [intros Q; first [discriminate Q | split; [discriminate | lia]] | intros (_ & H); try reflexivity; lia] | intros Q; try discriminate Q; reflexivity]).
  - split; [|intros R; apply C1 in R; discriminate R]. intros _. assert (X : Err e = Err TypeError :> result unit) by (apply C2; discriminate). injection X as ->. reflexivity.
Qed.
(** Giving the sentences to the constructor is the same as building the vocabulary and training with the numbers of the model, if they can be read again. *)
Theorem construct_steps : forall (k : nat) (alpha min_alpha : Q) (epochs : Z) (loss : bool) (c : corpus) (f : file), (exists l, c = NoCorpus /\ f = File l) \/ (exists l, c = Again l /\ f = NoFile) ->
  (1 <= epochs)%Z -> nv false [] (sentences_of c f) <> [] ->
  let built := build_vocab nv false (fresh alpha min_alpha epochs loss) c f in
  let trained := train k (m_of built) c f (mkArgs (Some (Z.of_nat (m_count (m_of built)))) None (Some epochs) None None loss) in
  construct nv train k alpha min_alpha epochs loss c f = (Ok tt, m_of trained, c, e_of built ++ e_of trained) /\ r_of trained = Ok tt.
Proof.
  intros k al mi ep lo c f H Hep V. cbv zeta.
  assert (R1 : readable c f 1) by (destruct H as [H|(l & -> & ->)]; [left; exact H | right; split; [reflexivity | left; eauto]]).
  assert (R : forall p, readable c f p) by (intros p; destruct H as [H'|(l & -> & ->)]; [left; exact H' | right; split; [reflexivity | left; eauto]]).
  assert (B : build_vocab nv false (fresh al mi ep lo) c f = (Ok tt, mkModel (nv false [] (sentences_of c f)) (length (nv false [] (sentences_of c f))) al mi (Some ep) lo 0 (length (sentences_of c f)) (length (concat (sentences_of c f))), c, [Read (sentences_of c f)])).
  { unfold build_vocab. rewrite (proj2 (proj1 (check_corpus_iff c f 1)) R1). destruct H as [(l & -> & ->)|(l & -> & ->)]; reflexivity. }
  assert (C0 : check_corpus c f (ep + 1) = Ok tt) by (apply check_corpus_iff, R).
  unfold construct. rewrite C0, B. cbn [m_of fst snd m_count m_words m_epochs m_alpha m_min_alpha m_loss e_of].
  set (m := mkModel _ _ _ _ _ _ _ _ _).
  assert (EQ : forall al' mi', num_or (Some al) al = al' -> num_or (Some mi) mi = mi' -> True) by auto. clear EQ.
  assert (NO : forall q : Q, num_or (Some q) q = q) by (intros q; unfold num_or; destruct (Qeq_bool q 0); reflexivity).
  assert (TT : forall a, a_epochs a = Some ep -> (a_examples a <> None \/ a_words a <> None) -> r_of (train k m c f a) = Ok tt).
  { intros a E1 E2. apply train_accepts. split; [|split; [split; [exact E2 | exists ep; auto] | apply R]]. split; [exact V|]. cbn. destruct (nv false [] (sentences_of c f)); [contradiction | discriminate]. }
  assert (CC : forall a, c_of (train k m c f a) = c).
  { intros a. unfold train. cbv zeta. destruct (check_training _ _ _ _); [|reflexivity]. rewrite (proj2 (proj1 (check_corpus_iff c f _)) (R _)). assert (G : forall n, snd (epochs_of k f n c) = c).
    { induction n as [|n IH]; [reflexivity|]. cbn [epochs_of]. destruct H as [(l & -> & ->)|(l & -> & ->)]; cbn [read]; destruct (epochs_of k _ n _); exact IH. }
    specialize (G (Z.to_nat match a_epochs a with Some e => e | None => 0%Z end)). destruct (epochs_of k f _ c). exact G. }
  set (a1 := mkArgs _ (Some _) _ _ _ _). set (a2 := mkArgs _ None _ _ _ _).
  assert (TE : train k m c f a1 = train k m c f a2).
  { unfold train, a1, a2, m. cbn [a_start a_end a_epochs a_examples a_words a_loss m_vocab m_rows m_alpha m_min_alpha m_loss m_trained m_count m_words m_epochs]. rewrite !NO. cbn [num_or].
    unfold check_training. cbn [m_vocab m_rows]. destruct (nv false [] (sentences_of c f)); reflexivity. }
  assert (T2 : r_of (train k m c f a2) = Ok tt) by (apply TT; [reflexivity | left; discriminate]).
  rewrite TE. pose proof (CC a2) as C2. destruct (train k m c f a2) as [[[r m2] c2] e2]. cbn in *. subst c2 r. split; [|reflexivity].
  destruct H as [(l & -> & ->)|(l & -> & ->)]; reflexivity.
Qed.
(** A generator cannot be given to a constructor: it is refused before it is read, except if no epochs are asked for, which is refused afterwards. *)
Theorem construct_generator : forall (k : nat) (alpha min_alpha : Q) (epochs : Z) (loss : bool) (l : list sentence),
  ((1 <= epochs)%Z -> construct nv train k alpha min_alpha epochs loss (Once true l) NoFile = (Err TypeError, fresh alpha min_alpha epochs loss, Once true l, [])) /\
  r_of (construct nv train k alpha min_alpha epochs loss (Once true l) NoFile) <> Ok tt.
Proof.
  intros k al mi ep lo l. assert (A : (1 <= ep)%Z -> construct nv train k al mi ep lo (Once true l) NoFile = (Err TypeError, fresh al mi ep lo, Once true l, [])).
  { intros L. unfold construct. cbn [check_corpus]. destruct (Z.ltb_spec 1 (ep + 1)); [reflexivity | lia]. }
  split; [exact A|]. destruct (Z.le_gt_cases 1 ep) as [L|L]; [rewrite (A L); discriminate|]. unfold construct. cbn [check_corpus]. destruct (Z.ltb_spec 1 (ep + 1)); [lia|].
  destruct (build_vocab nv false (fresh al mi ep lo) (Once true l) NoFile) as [[[[u|e] m'] c'] ev] eqn:B; [|discriminate].
  assert (Em : m_epochs m' = Some ep). { revert B. unfold build_vocab. cbn [check_corpus]. destruct (1 <? 1)%Z; [discriminate|]. cbn [read]. destruct (false && _); [discriminate|]. destruct (prep_rows _ _); [|discriminate]. intros [= _ <- _ _]. reflexivity. }
  match goal with |- context [train k m' c' NoFile ?a] => pose proof (proj1 (train_accepts k m' c' NoFile a)) as T; destruct (train k m' c' NoFile a) as [[[r2 m2] c2] e2] end. cbn in *. intros K. apply T in K. destruct K as (_ & (_ & e & He & Le) & _). cbn in He. rewrite Em in He. injection He as <-. lia.
Qed.
(** ** Histories *)
(** After any history of calls, accepted or not: the number of trainings is that of the accepted ones, and the counts are those of the last vocabulary that was begun. *)
Fixpoint accepted (l : list call) (rs : list (result unit)) : nat := match l, rs with CTrain _ _ _ _ :: l', Ok _ :: rs' => S (accepted l' rs') | _ :: l', _ :: rs' => accepted l' rs' | _, _ => 0 end.
Definition begun (x : call) : list (list sentence) := match x with CBuild _ c f => match check_corpus c f 1 with Ok _ => [sentences_of c f] | Err _ => [] end | _ => [] end.
Theorem history_counts : forall (l : list call) (m : model), let (rs, m') := do_calls nv m l in length rs = length l /\ m_trained m' = m_trained m + accepted l rs /\
  (m_count m' = match rev (flat_map begun l) with [] => m_count m | s :: _ => length s end).
Proof.
  assert (B1 : forall u m c f, m_trained (m_of (build_vocab nv u m c f)) = m_trained m /\ m_count (m_of (build_vocab nv u m c f)) = match begun (CBuild u c f) with s :: _ => length s | [] => m_count m end).
  { intros u m c f. unfold build_vocab, begun. destruct (check_corpus_iff c f 1) as (C1 & _). destruct (check_corpus c f 1) as [[]|e] eqn:E; [|split; reflexivity]. pose proof (proj1 C1 eq_refl) as R.
    assert (S : exists c', match f with File l => (l, c) | _ => read c end = (sentences_of c f, c')). { destruct R as [(l & -> & ->)|(-> & [(l & ->)|[(l & ->)|(l & -> & _)]])]; eexists; reflexivity. }
    destruct S as (c' & ->). cbv zeta. destruct (u && _); [split; reflexivity|]. destruct (prep_rows _ _); split; reflexivity. }
  assert (T1 : forall k m c f a, m_trained (m_of (train k m c f a)) = m_trained m + match r_of (train k m c f a) with Ok _ => 1 | Err _ => 0 end /\ m_count (m_of (train k m c f a)) = m_count m).
  { intros k m c f a. unfold train. destruct (check_training _ _ _ _); [|cbn; lia]. destruct (check_corpus _ _ _); [|cbn; lia]. destruct (epochs_of _ _ _ _). cbn. lia. }
  induction l as [|x l IH]; intros m; [cbn; lia|]. cbn [do_calls]. destruct (do_call nv m x) as [r m1] eqn:Ex. specialize (IH m1). destruct (do_calls nv m1 l) as [rs m']. destruct IH as (L & I1 & I2). split; [cbn; lia|].
  assert (X : m_trained m1 = m_trained m + match x, r with CTrain _ _ _ _, Ok _ => 1 | _, _ => 0 end /\ m_count m1 = match begun x with s :: _ => length s | [] => m_count m end).
  { destruct x as [u c f|k c f a]; cbn [do_call] in Ex.
    - specialize (B1 u m c f). destruct (build_vocab nv u m c f) as [[[r' m2] c2] e2]. injection Ex as <- <-. cbn [m_of fst snd] in B1. destruct B1 as (-> & ->). split; [lia | reflexivity].
    - specialize (T1 k m c f a). destruct (train k m c f a) as [[[r' m2] c2] e2]. injection Ex as <- <-. cbn [m_of r_of fst snd] in T1. destruct T1 as (-> & ->). split; reflexivity. }
  destruct X as (X1 & X2). split.
  - rewrite I1, X1. cbn [accepted]. destruct x, r; lia.
  - rewrite I2, X2. cbn [flat_map]. rewrite rev_app_distr. destruct (rev (flat_map begun l)) as [|s t]; cbn [app]; [|reflexivity]. assert (Lb : length (begun x) <= 1) by (destruct x as [u c f|]; cbn; [destruct (check_corpus c f 1); cbn; lia | lia]).
    destruct (begun x) as [|s [|s' t]]; [reflexivity | reflexivity | cbn in Lb; lia].
Qed.
End Build.
Print Assumptions build_exact.
Print Assumptions construct_steps.
Print Assumptions construct_generator.
Print Assumptions history_counts.

(** ** Settings of Doc2Vec *)
Theorem d2v_settings_exact : forall dm dm_concat tags window size cbow_mean, (dm = 0 \/ dm = 1)%Z ->
  let s := d2v_settings dm dm_concat tags window size None cbow_mean in
  (s_sg s = 1 - dm)%Z /\ (s_layer1 s = if (dm =? 1)%Z && negb (dm_concat =? 0)%Z then (tags + 2 * window) * size else size)%Z /\ s_cbow_mean s = match cbow_mean with Some n => n | None => 1%Z end.
Proof. intros dm dc t w s cm [->| ->]; cbn; (split; [reflexivity|]); (split; [|reflexivity]); try reflexivity; destruct (dc =? 0)%Z; reflexivity. Qed.
Print Assumptions d2v_settings_exact.

(** ** Cases *)
Fixpoint words_in (l : list pystr) (old : list pystr) : list pystr := match l with [] => old | w :: l' => words_in l' (if memb w old then old else old ++ [w]) end.
Definition nv0 (update : bool) (old : list pystr) (l : list sentence) : list pystr := words_in (concat l) (if update then old else []).
Definition text : list sentence := [[str "a"; str "b"]; [str "b"]].
Definition m0 : model := fresh (1#40) (1#10000) 5 true.
Example construct_ex : let o := construct nv0 train 1 (1#40) (1#10000) 2 true (Again text) NoFile in
  e_of o = [Read text; TrainBegin 0; EpochBegin 0; Read text; EpochEnd 0; EpochBegin 0; Read text; EpochEnd 0; TrainEnd 0] /\ m_trained (m_of o) = 1 /\ m_rows (m_of o) = 2.
Proof. vm_compute. auto. Qed.
Example history_ex : fst (do_calls nv0 m0 [CTrain 0 (Again text) NoFile (mkArgs (Some 2%Z) None (Some 1%Z) None None false); CBuild true (Again text) NoFile; CBuild false (Again text) NoFile; CTrain 0 (Once true text) NoFile (mkArgs (Some 2%Z) None (Some 2%Z) None None false); CTrain 0 (Once true text) NoFile (mkArgs None (Some 2%Z) (Some 1%Z) None None false); CTrain 0 (Again text) NoFile (mkArgs None None (Some 1%Z) None None false)])
  = [Err RuntimeErr; Err RuntimeErr; Ok tt; Err TypeError; Ok tt; Err ValueError].
Proof. vm_compute. reflexivity. Qed.
Example settings_ex : d2v_settings 1 1 1 5 10 None None = mkSettings 0 1 110 /\ d2v_settings 0 1 1 5 10 None (Some 0%Z) = mkSettings 1 0 10.
Proof. split; reflexivity. Qed.

(** ** Known failures *)
(** An iterator that is no generator is accepted, and nothing is left of it for training. *)
Theorem w2v_iterator_refuted : exists o, o = construct nv0 train 0 (1#40) (1#10000) 2 false (Once false text) NoFile /\ r_of o = Ok tt /\ e_of o = [Read text; Read []; Read []].
Proof. eexists. split; [reflexivity|]. vm_compute. auto. Qed.
(** A call without the number of epochs is refused, but the model has lost its own number, and training with that is refused as well. *)
Theorem epochs_lost_refuted : exists m, m = m_of (build_vocab nv0 false m0 (Again text) NoFile) /\
  let o := train 0 m (Again text) NoFile (mkArgs (Some 2%Z) None None None None false) in
  r_of (train 0 m (Again text) NoFile (mkArgs (Some 2%Z) None (m_epochs m) None None false)) = Ok tt /\ r_of o = Err ValueError /\
  r_of (train 0 (m_of o) (Again text) NoFile (mkArgs (Some 2%Z) None (m_epochs (m_of o)) None None false)) = Err ValueError.
Proof. eexists. split; [reflexivity|]. vm_compute. auto. Qed.
(** The setting compute_loss is lost in the first training that does not repeat it. *)
Theorem loss_lost_refuted : exists m, m = m_of (build_vocab nv0 false m0 (Again text) NoFile) /\
  m_loss m = true /\ m_loss (m_of (train 0 m (Again text) NoFile (mkArgs (Some 2%Z) None (Some 5%Z) None None false))) = false.
Proof. eexists. split; [reflexivity|]. vm_compute. auto. Qed.
(** A last learning rate of 0 is not used; one that was given stays for the trainings to come. *)
Theorem rates_refuted : exists m, m = m_of (build_vocab nv0 false m0 (Again text) NoFile) /\
  let t := fun m s e => m_of (train 0 m (Again text) NoFile (mkArgs (Some 2%Z) None (Some 5%Z) s e false)) in
  m_min_alpha (t m None (Some 0%Q)) = (1#10000)%Q /\ m_alpha (t (t m (Some (1#2)%Q) None) None None) = (1#2)%Q /\ m_alpha m = (1#40)%Q.
Proof. eexists. split; [reflexivity|]. vm_compute. auto. Qed.
(** The argument dm_mean has no effect. *)
Theorem dm_mean_refuted : exists mean mean', mean <> mean' /\ forall dm dm_concat tags window size cbow_mean, d2v_settings dm dm_concat tags window size mean cbow_mean = d2v_settings dm dm_concat tags window size mean' cbow_mean.
Proof. exists (Some 0%Z), (Some 1%Z). split; [discriminate | reflexivity]. Qed.
(** With dm = 2 the model is one without word order, and still has the layer for concatenation. *)
Theorem dm_two_refuted : exists dm, d2v_settings dm 1 1 5 10 None None = mkSettings 1 1 110.
Proof. exists 2%Z. reflexivity. Qed.
