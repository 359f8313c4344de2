(** Theorems about saving and loading objects (property C52). *)
From Verif Require Import Base Str SaveLoad_Model SaveLoad_Spec.
From Coq Require Import Lia ZifyNat ZifyBool ZifyN.

(** ** Small facts *)
Lemma at_attrs : forall w l a, at_ (w_heap w) l a = dget (attrs_of w l) a.
Proof. intros. unfold at_, attrs_of, dget_or. destruct (dget (w_heap w) l); reflexivity. Qed.
Lemma at_hset : forall h l a v l' a', at_ (hset h l a v) l' a' = if eq_dec l l' then if eq_dec a a' then Some v else at_ h l a' else at_ h l' a'.
Proof.
  intros. unfold at_, hset. rewrite dget_dset. destruct (eq_dec l l') as [E|E]; [|reflexivity]. rewrite dget_dset. destruct (eq_dec a a'); [reflexivity|].
  unfold dget_or. destruct (dget h l); reflexivity.
Qed.
Lemma setattr_heap : forall w l a v, w_heap (setattr w l a v) = hset (w_heap w) l a v.
Proof. reflexivity. Qed.
Lemma setattr_fs : forall w l a v, w_fs (setattr w l a v) = w_fs w.
Proof. reflexivity. Qed.
Lemma at_set_attrs : forall w l A l' a, at_ (w_heap (set_attrs w l A)) l' a = if eq_dec l l' then dget A a else at_ (w_heap w) l' a.
Proof. intros. unfold at_, set_attrs. cbn [w_heap]. rewrite dget_dset. destruct (eq_dec l l'); reflexivity. Qed.
Lemma wf_attrs : forall w l, wf_heap (w_heap w) -> NoDup (map fst (attrs_of w l)).
Proof. intros w l H. unfold attrs_of, dget_or. destruct (dget (w_heap w) l) as [A|] eqn:E; [apply (H l A E) | constructor]. Qed.
Lemma wf_set : forall w l A, wf_heap (w_heap w) -> NoDup (map fst A) -> wf_heap (w_heap (set_attrs w l A)).
Proof. intros w l A H N l' A' E. cbn [set_attrs w_heap] in E. rewrite dget_dset in E. destruct (eq_dec l l'); [injection E as <-; exact N | exact (H l' A' E)]. Qed.
Lemma wf_hset : forall h l a v, wf_heap h -> wf_heap (hset h l a v).
Proof.
  intros h l a v H l' A' E. unfold hset in E. rewrite dget_dset in E. destruct (eq_dec l l'); [|exact (H l' A' E)]. injection E as <-. apply NoDup_dset. unfold dget_or. destruct (dget h l) as [B|] eqn:Eb; [exact (H l B Eb) | constructor].
Qed.
Lemma write_heap : forall n c w, w_heap (snd (write n c w)) = w_heap w.
Proof. intros. unfold write. destruct (w_left w) as [[|k]|]; reflexivity. Qed.
Lemma write_fs : forall n c w, exists c', w_fs (snd (write n c w)) = dset (w_fs w) n c' /\ (fst (write n c w) = Ok tt -> c' = c).
Proof. intros. unfold write. destruct (w_left w) as [[|k]|]; eexists; (split; [reflexivity|]); cbn [fst]; congruence. Qed.
Lemma set_aside_spec : forall names asides self, NoDup (map fst self) ->
  let '(asides', self') := set_aside names asides self in
  self' = filter (fun av => negb (memb (fst av) names)) self /\
  (forall a, dget asides' a = match dget self a with Some v => if memb a names then Some v else dget asides a | None => dget asides a end) /\
  (NoDup (map fst asides) -> NoDup (map fst asides')).
Proof.
  induction names as [|n names IH]; intros asides self N; cbn [set_aside].
  - split; [|split; [|auto]].
    + clear. induction self as [|x self IHs]; [reflexivity|]. cbn [filter]. change (memb (fst x) []) with false. cbn [negb]. f_equal. exact IHs.
    + intros a. destruct (dget self a); reflexivity.
  - destruct (dget self n) as [v|] eqn:G.
    + specialize (IH (dset asides n v) (ddel self n) (NoDup_ddel self n N)). destruct (set_aside names _ _) as [asides' self']. destruct IH as (A & B & C). split; [|split].
      * rewrite A. clear - N. induction self as [|[k x] self IHs]; [reflexivity|]. inversion N as [|? ? NI ND]; subst. cbn [ddel filter fst]. destruct (eq_dec k n) as [E|E].
        -- subst k. replace (memb n (n :: names)) with true by (symmetry; apply memb_true; left; reflexivity). cbn [negb]. apply filter_ext_in. intros [k' x'] Hin. cbn [fst]. f_equal.
           destruct (memb k' names) eqn:M; symmetry; [apply memb_true; right; apply memb_true; exact M|]. apply memb_false. intros [X|X]; [|apply memb_true in X; congruence]. subst k'. apply NI. apply (in_map fst) in Hin. exact Hin.
        -- cbn [filter fst]. replace (memb k (n :: names)) with (memb k names). { rewrite IHs by exact ND. reflexivity. }
           destruct (memb k names) eqn:M; symmetry; [apply memb_true; right; apply memb_true; exact M|]. apply memb_false. intros [X|X]; [congruence | apply memb_true in X; congruence].
      * intros a. rewrite B. destruct (eq_dec n a) as [E|E].
        -- subst a. rewrite dget_ddel_same by exact N. rewrite G, dget_dset_same. replace (memb n (n :: names)) with true by (symmetry; apply memb_true; left; reflexivity). reflexivity.
        -- rewrite dget_ddel_other by exact E. rewrite dget_dset_other by exact E. destruct (dget self a) as [u|]; [|reflexivity]. replace (memb a (n :: names)) with (memb a names); [reflexivity|].
           destruct (memb a names) eqn:M; symmetry; [apply memb_true; right; apply memb_true; exact M|]. apply memb_false. intros [X|X]; [congruence | apply memb_true in X; congruence].
      * intros D. apply C. apply NoDup_dset. exact D.
    + specialize (IH asides self N). destruct (set_aside names _ _) as [asides' self']. destruct IH as (A & B & C). split; [|split; [|exact C]].
      * rewrite A. apply filter_ext_in. intros [k x] Hin. cbn [fst]. f_equal. destruct (memb k names) eqn:M; symmetry; [apply memb_true; right; apply memb_true; exact M|]. apply memb_false. intros [X|X]; [|apply memb_true in X; congruence].
        subst k. apply dget_None in G. apply G. apply (in_map fst) in Hin. exact Hin.
      * intros a. rewrite B. destruct (dget self a) as [u|] eqn:Ga; [|reflexivity]. replace (memb a (n :: names)) with (memb a names); [reflexivity|].
        destruct (memb a names) eqn:M; symmetry; [apply memb_true; right; apply memb_true; exact M|]. apply memb_false. intros [X|X]; [congruence | apply memb_true in X; congruence].
Qed.
Lemma write_arrays_heap : forall c f a d p i w, w_heap (snd (write_arrays c f a d p i w)) = w_heap w.
Proof.
  intros. unfold write_arrays. destruct c; [apply write_heap|].
  pose proof (write_heap (subname false [f; a; str "data"]) (CArr [length d] d) w) as H1. destruct (write _ _ w) as [[u|e] w1]; [|exact H1]. cbn [snd] in H1.
  pose proof (write_heap (subname false [f; a; str "indptr"]) (CArr [length p] p) w1) as H2. destruct (write _ _ w1) as [[u2|e] w2]; cbn [snd] in H2 |- *; [|congruence].
  rewrite write_heap. congruence.
Qed.
Lemma write_sparse_keeps : forall c f a v w, let '(_, v', w') := write_sparse c f a v w in v' = v /\ w_heap w' = w_heap w.
Proof.
  intros. unfold write_sparse. destruct v as [| [[[d p] i]|] rest | | | |]; try (split; reflexivity).
  pose proof (write_arrays_heap c f a d p i w) as H. destruct (write_arrays c f a d p i w) as [[u|e] w1]; [|split; [reflexivity | exact H]]. cbn [snd] in H.
  pose proof (write_heap (subname c [f; a]) (CValue (VSparse None rest)) w1) as H2. destruct (write _ _ w1) as [r w2]. cbn [snd] in H2. split; [reflexivity | congruence].
Qed.
Lemma store_all_keeps : forall c f ignore asides k w, let '(_, asides', w') := store_all c f ignore asides k w in asides' = asides /\ w_heap w' = w_heap w.
Proof.
  intros c f ignore asides. induction asides as [|[a v] asides IH]; intros k w; [split; reflexivity|]. cbn [store_all].
  set (step := match v with VArr _ _ => _ | _ => _ end).
  assert (S : let '(r, v', k', w') := step in v' = v /\ w_heap w' = w_heap w).
  { unfold step. destruct v as [s d|arrs rest| | | |]; try (split; reflexivity).
    - destruct (memb a ignore); [split; reflexivity|]. pose proof (write_heap (subname c [f; a]) (CArr (contiguous s) d) w) as H. destruct (write _ _ w). split; [reflexivity | exact H].
    - destruct (memb a ignore); [split; reflexivity|]. pose proof (write_sparse_keeps c f a (VSparse arrs rest) w) as H. destruct (write_sparse _ _ _ _ w) as [[r v'] w']. exact H. }
  clearbody step. destruct step as [[[r v'] k'] w']. destruct S as [-> Sh]. destruct r as [u|e]; [|split; [reflexivity | exact Sh]].
  specialize (IH k' w'). destruct (store_all _ _ _ _ k' w') as [[r2 rest'] w2]. destruct IH as [-> H]. split; [reflexivity | congruence].
Qed.
Lemma restore_at : forall asides w l l' a, (forall k v, In (k, v) asides -> dget asides k = Some v) ->
  at_ (w_heap (restore w l asides)) l' a = if eq_dec l l' then match dget asides a with Some v => Some v | None => at_ (w_heap w) l a end else at_ (w_heap w) l' a.
Proof.
  intros asides. induction asides as [|[k v] asides IH] using rev_ind; intros w l l' a H.
  - cbn. destruct (eq_dec l l') as [<-|]; reflexivity.
  - assert (HN : forall k' v', In (k', v') asides -> dget asides k' = Some v').
    { intros k' v' Hin. assert (X := H k' v' (in_or_app _ _ _ (or_introl Hin))). destruct (dget asides k') as [u|] eqn:G.
      - apply dget_In in G. assert (Y := H k' u (in_or_app _ _ _ (or_introl G))). congruence.
      - apply dget_None in G. exfalso. apply G. apply (in_map fst) in Hin. exact Hin. }
    unfold restore in *. rewrite fold_left_app. cbn [fold_left fst snd]. rewrite setattr_heap, at_hset. rewrite !IH by exact HN.
    assert (D : forall x, dget (asides ++ [(k, v)]) x = match dget asides x with Some u => Some u | None => if eq_dec k x then Some v else None end).
    { intros x. clear. induction asides as [|[k' v'] r IHr]; [reflexivity|]. cbn [app dget]. destruct (eq_dec k' x); [reflexivity | exact IHr]. }
    destruct (eq_dec l l') as [->|]; [|reflexivity]. rewrite D. destruct (eq_dec l' l'); [|congruence]. destruct (eq_dec k a) as [->|].
    + assert (X : dget (asides ++ [(a, v)]) a = Some v) by (apply H; apply in_or_app; right; left; reflexivity). rewrite D in X. destruct (dget asides a); [congruence | reflexivity].
    + destruct (dget asides a); reflexivity.
Qed.
Lemma restore_fs : forall asides w l, w_fs (restore w l asides) = w_fs w.
Proof. unfold restore. induction asides as [|x r IH]; intros w l; [reflexivity|]. cbn [fold_left]. rewrite IH. reflexivity. Qed.
Lemma restore_wf : forall asides w l, wf_heap (w_heap w) -> wf_heap (w_heap (restore w l asides)).
Proof. unfold restore. induction asides as [|x r IH]; intros w l H; [exact H|]. cbn [fold_left]. apply IH. rewrite setattr_heap. apply wf_hset. exact H. Qed.

(** ** Nothing but removals, and every removal is noted *)
Definition noted (h h' : heap) (restores : list (loc * attrs)) : Prop :=
  (forall l a, ~ book a -> at_ h' l a = at_ h l a \/ (at_ h' l a = None /\ exists asides v, In (l, asides) restores /\ dget asides a = Some v /\ at_ h l a = Some v)) /\
  (forall l asides a v, In (l, asides) restores -> ~ book a -> dget asides a = Some v -> at_ h l a = Some v) /\
  (forall l asides, In (l, asides) restores -> NoDup (map fst asides)).
Lemma noted_refl : forall h, noted h h [].
Proof. intros h. split; [intros; left; reflexivity|]. split; [intros ? ? ? ? []|intros ? ? []]. Qed.
Lemma noted_trans : forall h0 h1 h2 r1 r2, noted h0 h1 r1 -> noted h1 h2 r2 -> noted h0 h2 (r1 ++ r2).
Proof.
  intros h0 h1 h2 r1 r2 (A1 & B1 & C1) (A2 & B2 & C2). split; [|split].
  - intros l a Hb. destruct (A2 l a Hb) as [E2|(N2 & asides & v & I & G & X)].
    + destruct (A1 l a Hb) as [E1|(N1 & asides & v & I & G & X)]; [left; congruence|]. right. split; [congruence|]. exists asides, v. split; [apply in_or_app; left; exact I | auto].
    + right. split; [exact N2|]. exists asides, v. split; [apply in_or_app; right; exact I|]. split; [exact G|]. destruct (A1 l a Hb) as [E1|(N1 & _)]; congruence.
  - intros l asides a v I Hb G. apply in_app_iff in I. destruct I as [I|I]; [exact (B1 l asides a v I Hb G)|]. specialize (B2 l asides a v I Hb G). destruct (A1 l a Hb) as [E1|(N1 & _)]; congruence.
  - intros l asides I. apply in_app_iff in I. destruct I as [I|I]; [exact (C1 l asides I) | exact (C2 l asides I)].
Qed.
Lemma book_at : forall k subs w l l' a, ~ book a -> at_ (w_heap (bookkeeping k subs w l)) l' a = at_ (w_heap w) l' a.
Proof.
  intros k subs w l l' a Hb. unfold bookkeeping. rewrite !setattr_heap, !at_hset. unfold book in Hb. cbn [In] in Hb.
  destruct (eq_dec l l') as [->|]; [|reflexivity]. destruct (eq_dec l' l'); [|congruence].
  destruct (eq_dec a_subs a) as [E|_]; [exfalso; apply Hb; right; right; right; left; exact E|].
  destruct (eq_dec a_ignoreds a) as [E|_]; [exfalso; apply Hb; right; right; left; exact E|].
  destruct (eq_dec a_scipys a) as [E|_]; [exfalso; apply Hb; right; left; exact E|].
  destruct (eq_dec a_numpys a) as [E|_]; [exfalso; apply Hb; left; exact E|]. reflexivity.
Qed.
Lemma book_wf : forall k subs w l, wf_heap (w_heap w) -> wf_heap (w_heap (bookkeeping k subs w l)).
Proof. intros. unfold bookkeeping. rewrite !setattr_heap. repeat apply wf_hset. exact H. Qed.
Lemma set_aside_noted : forall names w l, wf_heap (w_heap w) -> let '(asides, self) := set_aside names [] (attrs_of w l) in
  noted (w_heap w) (w_heap (set_attrs w l self)) [(l, asides)] /\ wf_heap (w_heap (set_attrs w l self)) /\ only_lost (w_heap w) (w_heap (set_attrs w l self)).
Proof.
  intros names w l W. pose proof (wf_attrs w l W) as N. pose proof (set_aside_spec names [] (attrs_of w l) N) as S. destruct (set_aside names [] (attrs_of w l)) as [asides self]. destruct S as (A & B & C).
  assert (G : forall l' a, at_ (w_heap (set_attrs w l self)) l' a = at_ (w_heap w) l' a \/ (l = l' /\ at_ (w_heap (set_attrs w l self)) l' a = None /\ exists v, dget asides a = Some v /\ at_ (w_heap w) l' a = Some v)).
  { intros l' a. rewrite at_set_attrs. destruct (eq_dec l l') as [<-|]; [|left; reflexivity]. rewrite at_attrs, A, (dget_filter_key (fun k => negb (memb k names))). specialize (B a).
    destruct (memb a names); cbn [negb]; [|left; reflexivity]. destruct (dget (attrs_of w l) a) as [v|] eqn:E; [|left; reflexivity]. right. split; [reflexivity|]. split; [reflexivity|]. exists v. split; [exact B | reflexivity]. }
  split; [split; [|split]|split].
  - intros l' a _. destruct (G l' a) as [E|(E1 & E2 & v & E3 & E4)]; [left; exact E|]. right. split; [exact E2|]. exists asides, v. subst l'. split; [left; reflexivity | auto].
  - intros l' asides' a v [I|[]] _ D. injection I as <- <-. rewrite at_attrs. rewrite B in D. destruct (dget (attrs_of w l) a) as [u|]; [destruct (memb a names); [exact D | discriminate] | discriminate].
  - intros l' asides' [I|[]]. injection I as <- <-. apply C. constructor.
  - apply wf_set; [exact W|]. rewrite A. apply (NoDup_dkeys_filter _ (attrs_of w l) N).
  - intros l' a _. destruct (G l' a) as [E|(_ & E & _)]; auto.
Qed.
Lemma lost_trans : forall h0 h1 h2, only_lost h0 h1 -> only_lost h1 h2 -> only_lost h0 h2.
Proof. intros h0 h1 h2 A B l a Hb. destruct (B l a Hb) as [E|E]; [|right; exact E]. destruct (A l a Hb); [left | right]; congruence. Qed.
Lemma noted_lost : forall h h' r, noted h h' r -> only_lost h h'.
Proof. intros h h' r (A & _) l a Hb. destruct (A l a Hb) as [E|(E & _)]; auto. Qed.
Lemma each_sub_noted : forall (go : loc -> attr -> world -> result (list (loc * attrs)) * world) items,
  (forall l a w, wf_heap (w_heap w) -> let '(r, w') := go l a w in wf_heap (w_heap w') /\ only_lost (w_heap w) (w_heap w') /\ forall rs, r = Ok rs -> noted (w_heap w) (w_heap w') rs) ->
  forall w, wf_heap (w_heap w) -> let '(r, w') := each_sub go items w in wf_heap (w_heap w') /\ only_lost (w_heap w) (w_heap w') /\ forall subs rs, r = Ok (subs, rs) -> noted (w_heap w) (w_heap w') rs.
Proof.
  intros go items H. induction items as [|[a v] items IH]; intros w W; cbn [each_sub].
  - split; [exact W|]. split; [intros l a _; left; reflexivity|]. intros subs rs E. injection E as _ <-. apply noted_refl.
  - destruct v; try (apply IH; exact W). specialize (H l a w W). destruct (go l a w) as [[r1|e] w1]; destruct H as (W1 & L1 & N1).
    + specialize (IH w1 W1). destruct (each_sub go items w1) as [[[subs r2]|e] w2]; destruct IH as (W2 & L2 & N2).
      * split; [exact W2|]. split; [eapply lost_trans; eassumption|]. intros subs' rs E. injection E as <- <-. eapply noted_trans; [apply N1; reflexivity | eapply N2; reflexivity].
      * split; [exact W2|]. split; [eapply lost_trans; eassumption|]. discriminate.
    + split; [exact W1|]. split; [exact L1|]. discriminate.
Qed.
Lemma save_specials_noted : forall fuel l fname sep limit ignore c w, wf_heap (w_heap w) ->
  let '(r, w') := save_specials fuel l fname sep limit ignore c w in wf_heap (w_heap w') /\ only_lost (w_heap w) (w_heap w') /\ forall rs, r = Ok rs -> noted (w_heap w) (w_heap w') rs.
Proof.
  induction fuel as [|fuel IH]; intros l fname sep limit ignore c w W; cbn [save_specials].
  - split; [exact W|]. split; [intros ? ? _; left; reflexivity | discriminate].
  - set (sp := match sep with Some s => s | None => detect limit (attrs_of w l) end).
    pose proof (set_aside_noted (sp ++ ignore) w l W) as SA. destruct (set_aside (sp ++ ignore) [] (attrs_of w l)) as [asides self]. destruct SA as (N1 & W1 & L1).
    pose proof (each_sub_noted (fun l' a w' => save_specials fuel l' (join dot [fname; a]) None limit ignore c w') self (fun l' a w' => IH l' _ None limit ignore c w') (set_attrs w l self) W1) as ES.
    destruct (each_sub _ self (set_attrs w l self)) as [[[subs restores]|e] w2]; destruct ES as (W2 & L2 & N2).
    + pose proof (store_all_keeps c fname ignore asides (mkKinds [] [] []) w2) as SK. destruct (store_all c fname ignore asides _ w2) as [[[k|e] asides'] w3]; destruct SK as [-> H3].
      * split; [apply book_wf; rewrite H3; exact W2|]. split.
        -- intros l' a Hb. rewrite book_at by exact Hb. rewrite H3. apply (lost_trans _ _ _ L1 L2 l' a Hb).
        -- intros rs E. injection E as <-. destruct (noted_trans _ _ _ _ _ N1 (N2 subs restores eq_refl)) as (A & B & C). split; [|split].
           ++ intros l' a Hb. rewrite book_at by exact Hb. rewrite H3. destruct (A l' a Hb) as [X|(X & as_ & v & I & G)]; [left; exact X|]. right. split; [exact X|]. exists as_, v. split; [|exact G]. apply in_app_iff in I. apply in_app_iff. tauto.
           ++ intros l' as_ a v I. apply B. apply in_app_iff in I. apply in_app_iff. tauto.
           ++ intros l' as_ I. apply (C l' as_). apply in_app_iff in I. apply in_app_iff. tauto.
      * split; [apply restore_wf; rewrite H3; exact W2|]. split; [|discriminate]. intros l' a Hb. rewrite restore_at by (intros k v Hin; apply In_dget; [|exact Hin]; destruct N1 as (_ & _ & C); apply (C l asides); left; reflexivity).
        rewrite H3. pose proof (lost_trans _ _ _ L1 L2) as L. destruct (eq_dec l l') as [<-|]; [|apply L; exact Hb]. destruct (dget asides a) as [v|] eqn:G; [|apply L; exact Hb].
        left. destruct N1 as (_ & B & _). symmetry. apply (B l asides a v); [left; reflexivity | exact Hb | exact G].
    + split; [exact W2|]. split; [eapply lost_trans; eassumption | discriminate].
Qed.
Lemma restore_all_at : forall rs h w, noted h (w_heap w) rs -> (forall l asides a v, In (l, asides) rs -> ~ book a -> dget asides a = Some v -> at_ h l a = Some v) ->
  forall l a, ~ book a -> at_ (w_heap (restore_all w rs)) l a = at_ h l a.
Proof.
  unfold restore_all. induction rs as [|[l0 asides] rs IH]; intros h w (A & B & C) B' l a Hb.
  - destruct (A l a Hb) as [E|(_ & x & v & [] & _)]; exact E.
  - cbn [fold_left fst snd]. apply IH; [|intros; eapply B'; [right; eassumption | eassumption | eassumption] | exact Hb]. split; [|split].
    + intros l' a' Hb'. rewrite restore_at by (intros k v Hin; apply In_dget; [apply (C l0 asides); left; reflexivity | exact Hin]).
      destruct (eq_dec l0 l') as [<-|NE].
      * destruct (dget asides a') as [v|] eqn:G; [left; symmetry; apply (B l0 asides a' v (or_introl eq_refl) Hb' G)|]. destruct (A l0 a' Hb') as [E|(N & as_ & v & [I|I] & G' & X)]; [left; exact E | injection I as <-; congruence|]. right. split; [exact N|]. exists as_, v. auto.
      * destruct (A l' a' Hb') as [E|(N & as_ & v & [I|I] & G' & X)]; [left; exact E | injection I as E' _; congruence|]. right. split; [exact N|]. exists as_, v. auto.
    + intros l' as_ a' v I. apply B. right. exact I.
    + intros l' as_ I. apply (C l' as_). right. exact I.
Qed.

(** ** The live object *)
(** Once the separate files are written, saving leaves every attribute of every object as it was, whether or not the pickling
    itself succeeds. *)
Theorem save_intact : forall fuel l fname sep limit ignore w restores w1, wf_heap (w_heap w) ->
  save_specials fuel l fname sep limit ignore (compressed fname) w = (Ok restores, w1) ->
  intact (w_heap w) (w_heap (snd (smart_save fuel l fname sep limit ignore w))).
Proof.
  intros fuel l fname sep limit ignore w restores w1 W H. unfold smart_save. rewrite H. pose proof (save_specials_noted fuel l fname sep limit ignore (compressed fname) w W) as N. rewrite H in N. destruct N as (_ & _ & N). specialize (N restores eq_refl).
  pose proof (write_heap fname (CObject (w_heap w1) l) w1) as Hw. destruct (write fname _ w1) as [r w2]. cbn [snd] in *. intros l' a Hb. apply restore_all_at; [rewrite Hw; exact N | apply N | exact Hb].
Qed.
Print Assumptions save_intact.
Theorem save_success_intact : forall fuel l t sep limit ignore w w', wf_heap (w_heap w) ->
  save fuel l t sep limit ignore w = (Ok tt, w') -> intact (w_heap w) (w_heap w').
Proof.
  intros fuel l [fname|name] sep limit ignore w w' W H; cbn [save] in H.
  - destruct (save_specials fuel l fname sep limit ignore (compressed fname) w) as [[rs|e] w1] eqn:S; [|unfold smart_save in H; rewrite S in H; discriminate].
    pose proof (save_intact _ _ _ _ _ _ _ _ _ W S) as I. rewrite H in I. exact I.
  - pose proof (write_heap name (CObject (w_heap w) l) w) as Hw. rewrite H in Hw. cbn [snd] in Hw. rewrite Hw. intros l' a _. reflexivity.
Qed.
Print Assumptions save_success_intact.
(** An object without SaveLoad attributes keeps its attributes wherever the saving fails. *)
Theorem save_flat_intact : forall fuel l fname sep limit ignore w, wf_heap (w_heap w) ->
  (forall a l', at_ (w_heap w) l a <> Some (VSub l')) ->
  intact (w_heap w) (w_heap (snd (smart_save fuel l fname sep limit ignore w))).
Proof.
  intros fuel l fname sep limit ignore w W F. destruct (save_specials fuel l fname sep limit ignore (compressed fname) w) as [[rs|e] w1] eqn:S.
  - eapply save_intact; eassumption.
  - unfold smart_save. rewrite S. cbn [snd]. destruct fuel as [|fuel]; cbn [save_specials] in S; [injection S as _ <-; intros ? ? _; reflexivity|].
    set (sp := match sep with Some s => s | None => detect limit (attrs_of w l) end) in S. pose proof (set_aside_noted (sp ++ ignore) w l W) as SA. pose proof (set_aside_spec (sp ++ ignore) [] (attrs_of w l) (wf_attrs w l W)) as SS.
    destruct (set_aside (sp ++ ignore) [] (attrs_of w l)) as [asides self]. destruct SA as (N1 & W1 & L1). destruct SS as (Sf & _ & _).
    assert (ES : forall go, each_sub go self (set_attrs w l self) = (Ok ([], []), set_attrs w l self)).
    { intros go. generalize (set_attrs w l self) as w0. assert (FF : forall a v, In (a, v) self -> forall l', v <> VSub l').
      { intros a v Hin l' E. subst v self. apply filter_In in Hin. destruct Hin as [Hin _]. apply (F a l'). rewrite at_attrs. apply In_dget; [apply wf_attrs; exact W | exact Hin]. }
      clear - FF. induction self as [|[a v] self IH]; intros w0; [reflexivity|]. cbn [each_sub]. assert (X : each_sub go self w0 = (Ok ([], []), w0)) by (apply IH; intros a' v' Hin; apply FF with a'; right; exact Hin).
      destruct v; try exact X. exfalso. apply (FF a (VSub l) (or_introl eq_refl) l eq_refl). }
    rewrite ES in S. pose proof (store_all_keeps (compressed fname) fname ignore asides (mkKinds [] [] []) (set_attrs w l self)) as SK. destruct (store_all _ _ _ _ _ _) as [[[k|e'] asides'] w3]; destruct SK as [-> H3]; [discriminate|]. injection S as _ <-.
    intros l' a Hb. change (restore w3 l asides) with (restore_all w3 [(l, asides)]). apply restore_all_at; [rewrite H3; exact N1 | apply N1 | exact Hb].
Qed.
Print Assumptions save_flat_intact.
(** In any case attributes are never changed, only lost. *)
Theorem save_only_loses : forall fuel l t sep limit ignore w, wf_heap (w_heap w) -> only_lost (w_heap w) (w_heap (snd (save fuel l t sep limit ignore w))).
Proof.
  intros fuel l [fname|name] sep limit ignore w W; cbn [save]; [|rewrite write_heap; intros ? ? _; left; reflexivity].
  pose proof (save_specials_noted fuel l fname sep limit ignore (compressed fname) w W) as N. destruct (save_specials fuel l fname sep limit ignore (compressed fname) w) as [[rs|e] w1] eqn:S.
  - intros l' a Hb. left. eapply save_intact; eassumption.
  - unfold smart_save. rewrite S. apply N.
Qed.
Print Assumptions save_only_loses.

(** ** The files *)
Definition under (fname a n : pystr) : Prop := exists rest, n = fname ++ dot ++ a ++ dot ++ rest.
Lemma dot_split : forall a b r s : list N, ~ In 46%N a -> ~ In 46%N b -> a ++ dot ++ r = b ++ dot ++ s -> a = b.
Proof.
  induction a as [|x a IH]; intros b r s A B E.
  - destruct b as [|y b]; [reflexivity|]. injection E as E _. exfalso. apply B. left. symmetry. exact E.
  - destruct b as [|y b]; [injection E as E _; exfalso; apply A; left; exact E|]. injection E as E1 E2. subst y. f_equal. apply (IH b r s); [intros X; apply A; right; exact X | intros X; apply B; right; exact X | exact E2].
Qed.
Lemma under_disj : forall f a b n, ~ In 46%N a -> ~ In 46%N b -> under f a n -> under f b n -> a = b.
Proof. intros f a b n A B (r & Hr) (s & Hs). rewrite Hr in Hs. apply app_inv_head in Hs. apply app_inv_head in Hs. exact (dot_split a b r s A B Hs). Qed.
Lemma sub_under : forall c f a, under f a (subname c [f; a]).
Proof. intros. unfold subname. exists (if c then str "npz" else str "npy"). cbn [app join]. reflexivity. Qed.
Lemma sub_under3 : forall c f a x, under f a (subname c [f; a; x]).
Proof. intros. unfold subname. exists (x ++ dot ++ if c then str "npz" else str "npy"). cbn [app join]. reflexivity. Qed.
Lemma child_under : forall f a b n, under (join dot [f; a]) b n -> under f a n.
Proof. intros f a b n (r & H). exists (b ++ dot ++ r). rewrite H. cbn [join]. rewrite <- !app_assoc. reflexivity. Qed.
Lemma fname_not_under : forall f a, ~ under f a f.
Proof. intros f a (r & H). apply (f_equal (@length N)) in H. rewrite !app_length in H. cbn [dot length] in H. lia. Qed.
Lemma write_ok : forall n c w w', write n c w = (Ok tt, w') -> w_fs w' = dset (w_fs w) n c.
Proof. intros n c w w' H. destruct (write_fs n c w) as (c' & E & X). rewrite H in *. cbn [fst snd] in *. rewrite E, X; reflexivity. Qed.
Definition file_ok (c : bool) (fname : pystr) (ignore : list attr) (fs : dict pystr content) (av : attr * value) : Prop :=
  memb (fst av) ignore = true \/
  match snd av with
  | VArr s d => dget fs (subname c [fname; fst av]) = Some (CArr (contiguous s) d)
  | VSparse (Some (d, p, i)) rest => dget fs (subname c [fname; fst av]) = Some (CValue (VSparse None rest)) /\
      (if c then dget fs (subname c [fname; fst av; str "sparse"]) = Some (CArrays d p i)
       else dget fs (subname c [fname; fst av; str "data"]) = Some (CArr [length d] d) /\ dget fs (subname c [fname; fst av; str "indptr"]) = Some (CArr [length p] p) /\
            dget fs (subname c [fname; fst av; str "indices"]) = Some (CArr [length i] i))
  | VSparse None _ => False
  | _ => True
  end.
Lemma file_ok_frame : forall c f ignore fs fs' av, (forall n, under f (fst av) n -> dget fs' n = dget fs n) -> file_ok c f ignore fs av -> file_ok c f ignore fs' av.
Proof.
  intros c f ignore fs fs' [a v] H [I|O]; [left; exact I|]. right. cbn [fst snd] in *. destruct v as [s d|[[[d p] i]|] rest| | | |]; try exact O.
  - rewrite H; [exact O | apply sub_under].
  - rewrite H by apply sub_under. destruct c; rewrite !H by apply sub_under3; exact O.
Qed.
Lemma sub_neq : forall c f a x y, x <> y -> subname c [f; a; x] <> subname c [f; a; y].
Proof. intros c f a x y N E. apply N. unfold subname in E. cbn [app join] in E. do 4 apply app_inv_head in E. apply app_inv_tail in E. exact E. Qed.
Lemma sub_neq2 : forall c f a x, subname c [f; a; x] <> subname c [f; a].
Proof. intros c f a x E. unfold subname in E. cbn [app join] in E. do 4 apply app_inv_head in E. apply (f_equal (@length N)) in E. rewrite !app_length in E. cbn [dot length] in E. lia. Qed.
Lemma write_sparse_ok : forall c f ignore a v w v' w', write_sparse c f a v w = (Ok tt, v', w') ->
  (forall n, ~ under f a n -> dget (w_fs w') n = dget (w_fs w) n) /\ (exists x rest, v = VSparse x rest) /\ file_ok c f ignore (w_fs w') (a, v).
Proof.
  intros c f ignore a v w v' w' H. unfold write_sparse in H. destruct v as [|[[[d p] i]|] rest| | | |]; try discriminate.
  destruct (write_arrays c f a d p i w) as [[[]|e] w1] eqn:W; [|discriminate]. destruct (write (subname c [f; a]) (CValue (VSparse None rest)) w1) as [r w2] eqn:W2. injection H as -> _ <-. apply write_ok in W2.
  assert (X : (forall n, ~ under f a n -> dget (w_fs w1) n = dget (w_fs w) n) /\
    if c then dget (w_fs w1) (subname c [f; a; str "sparse"]) = Some (CArrays d p i)
    else dget (w_fs w1) (subname c [f; a; str "data"]) = Some (CArr [length d] d) /\ dget (w_fs w1) (subname c [f; a; str "indptr"]) = Some (CArr [length p] p) /\ dget (w_fs w1) (subname c [f; a; str "indices"]) = Some (CArr [length i] i)).
  { unfold write_arrays in W. destruct c.
    - apply write_ok in W. rewrite W. split; [|apply dget_dset_same]. intros n Hn. rewrite dget_dset_other; [reflexivity|]. intros <-. apply Hn. apply sub_under3.
    - destruct (write (subname false [f; a; str "data"]) (CArr [length d] d) w) as [[[]|e] wa] eqn:Wa; [|discriminate]. apply write_ok in Wa.
      destruct (write (subname false [f; a; str "indptr"]) (CArr [length p] p) wa) as [[[]|e] wb] eqn:Wb; [|discriminate]. apply write_ok in Wb. apply write_ok in W. rewrite W, Wb, Wa. split; [|split; [|split]].
      + intros n Hn. rewrite !dget_dset_other; [reflexivity | | |]; intros <-; apply Hn; apply sub_under3.
      + rewrite dget_dset_other by (apply sub_neq; discriminate). rewrite dget_dset_other by (apply sub_neq; discriminate). apply dget_dset_same.
      + rewrite dget_dset_other by (apply sub_neq; discriminate). apply dget_dset_same.
      + apply dget_dset_same. }
  destruct X as [X1 X2]. split; [|split].
  - intros n Hn. rewrite W2, dget_dset_other; [apply X1; exact Hn|]. intros <-. apply Hn. apply sub_under.
  - eauto.
  - right. cbn [fst snd]. rewrite W2. split; [apply dget_dset_same|]. destruct c; rewrite !dget_dset_other by (apply not_eq_sym; apply sub_neq2); exact X2.
Qed.
Definition is_numpy (ignore : list attr) (av : attr * value) : bool := negb (memb (fst av) ignore) && match snd av with VArr _ _ => true | _ => false end.
Definition is_scipy (ignore : list attr) (av : attr * value) : bool := negb (memb (fst av) ignore) && match snd av with VSparse _ _ => true | _ => false end.
Definition kinds_of (ignore : list attr) (asides : attrs) : kinds :=
  mkKinds (map fst (filter (is_numpy ignore) asides)) (map fst (filter (is_scipy ignore) asides)) (map fst (filter (fun av => negb (is_numpy ignore av) && negb (is_scipy ignore av)) asides)).
Lemma store_all_ok : forall c f ignore asides k w k' asides' w', NoDup (map fst asides) -> (forall a, In a (map fst asides) -> ~ In 46%N a) ->
  store_all c f ignore asides k w = (Ok k', asides', w') ->
  k' = mkKinds (k_numpys k ++ k_numpys (kinds_of ignore asides)) (k_scipys k ++ k_scipys (kinds_of ignore asides)) (k_ignoreds k ++ k_ignoreds (kinds_of ignore asides)) /\
  (forall n, (forall a, In a (map fst asides) -> ~ under f a n) -> dget (w_fs w') n = dget (w_fs w) n) /\
  Forall (file_ok c f ignore (w_fs w')) asides.
Proof.
  intros c f ignore asides. induction asides as [|[a v] asides IH]; intros k w k' asides' w' N D H; cbn [store_all] in H.
  - injection H as <- _ <-. destruct k. cbn. rewrite !app_nil_r. split; [reflexivity|]. split; [reflexivity | constructor].
  - set (step := match v with VArr _ _ => _ | _ => _ end) in H.
    assert (S : let '(r, v', k1, w1) := step in r = Ok tt -> k1 = mkKinds (k_numpys k ++ if is_numpy ignore (a, v) then [a] else []) (k_scipys k ++ if is_scipy ignore (a, v) then [a] else []) (k_ignoreds k ++ if negb (is_numpy ignore (a, v)) && negb (is_scipy ignore (a, v)) then [a] else []) /\
      (forall n, ~ under f a n -> dget (w_fs w1) n = dget (w_fs w) n) /\ file_ok c f ignore (w_fs w1) (a, v)).
    { unfold step, is_numpy, is_scipy. cbn [fst snd]. destruct v as [s d|arrs rest| | | |]; try (intros _; rewrite ?andb_false_r, ?app_nil_r; cbn [negb andb]; split; [reflexivity|]; split; [reflexivity | right; exact Logic.I]).
      - destruct (@memb attr _ a ignore) eqn:M; cbn [negb andb]; [intros _; rewrite ?app_nil_r; split; [reflexivity|]; split; [reflexivity | left; exact M]|].
        match goal with |- context [write ?x ?y ?z] => destruct (write x y z) as [r w1] eqn:W end. intros ->. apply write_ok in W. rewrite ?app_nil_r. split; [reflexivity|]. rewrite W. split.
        + intros n Hn. apply dget_dset_other. intros <-. apply Hn. apply sub_under.
        + right. cbn [fst snd]. apply dget_dset_same.
      - destruct (@memb attr _ a ignore) eqn:M; cbn [negb andb]; [intros _; rewrite ?app_nil_r; split; [reflexivity|]; split; [reflexivity | left; exact M]|].
        match goal with |- context [write_sparse ?x ?y ?z ?u ?v] => destruct (write_sparse x y z u v) as [[r v'] w1] eqn:W end. intros ->. destruct (write_sparse_ok c f ignore a _ w v' w1 W) as (X1 & _ & X2). rewrite ?app_nil_r. split; [reflexivity|]. split; assumption. }
    clearbody step. destruct step as [[[r v'] k1] w1]. destruct r as [[]|e]; [|discriminate]. specialize (S eq_refl). destruct S as (Sk & Sf & So).
    destruct (store_all c f ignore asides k1 w1) as [[r2 rest'] w2] eqn:E2. injection H as -> _ ->. inversion N as [|? ? NI ND]; subst.
    destruct (IH _ _ _ _ _ ND (fun x Hx => D x (or_intror Hx)) E2) as (A & B & C). split; [|split].
    + rewrite A. cbn [k_numpys k_scipys k_ignoreds kinds_of filter]. destruct (is_numpy ignore (a, v)), (is_scipy ignore (a, v)); cbn [negb andb map fst app]; rewrite <- ?app_assoc; reflexivity.
    + intros n Hn. rewrite B by (intros x Hx; apply Hn; right; exact Hx). apply Sf. apply Hn. left. reflexivity.
    + constructor; [|exact C]. apply (file_ok_frame c f ignore (w_fs w1)); [|exact So]. cbn [fst]. intros n Hn. apply B. intros x Hx Hu. assert (a = x) by (apply (under_disj f a x n); [apply D; left; reflexivity | apply D; right; exact Hx | exact Hn | exact Hu]). subst x. contradiction.
Qed.

(** ** What the files and the pickled heap contain *)
Definition sub_names (A : attrs) : list attr := map fst (filter (fun av => match snd av with VSub _ => true | _ => false end) A).
Fixpoint stored (fuel : nat) (h0 h : heap) (fs : dict pystr content) (c : bool) (limit : Z) (ignore : list attr) (sep : option (list attr)) (fname : pystr) (l : loc) : Prop :=
  match fuel with
  | 0 => False
  | S f =>
    exists asides, NoDup (map fst asides) /\
      (forall a, dget asides a = match dget (dget_or h0 l []) a with Some v => if out sep limit ignore (a, v) then Some v else None | None => None end) /\
      (forall a, ~ book a -> at_ h l a = dget (kept sep limit ignore (dget_or h0 l [])) a) /\
      at_ h l a_subs = Some (VNames (sub_names (kept sep limit ignore (dget_or h0 l [])))) /\
      at_ h l a_numpys = Some (VNames (k_numpys (kinds_of ignore asides))) /\
      at_ h l a_scipys = Some (VNames (k_scipys (kinds_of ignore asides))) /\
      at_ h l a_ignoreds = Some (VNames (k_ignoreds (kinds_of ignore asides))) /\
      Forall (file_ok c fname ignore fs) asides /\
      forall a l', In (a, VSub l') (kept sep limit ignore (dget_or h0 l [])) -> stored f h0 h fs c limit ignore None (join dot [fname; a]) l'
  end.
Lemma dget_aside_key : forall asides sep limit ignore (A : attrs), (forall a, dget asides a = match dget A a with Some v => if out sep limit ignore (a, v) then Some v else None | None => None end) ->
  forall a, In a (map fst asides) -> In a (map fst A).
Proof.
  intros asides sep limit ignore A H a Ha. specialize (H a). destruct (dget asides a) as [v|] eqn:E; [|apply dget_None in E; contradiction]. destruct (dget A a) as [u|] eqn:G; [|discriminate]. eapply dget_Some_key. eexists. exact G.
Qed.
Lemma stored_frame : forall fuel h0 h h' fs fs' c limit ignore sep fname l, stored fuel h0 h fs c limit ignore sep fname l ->
  (forall n, In n (visited fuel h0 sep limit ignore l) -> dget h' n = dget h n) ->
  (forall a n, In a (map fst (dget_or h0 l [])) -> under fname a n -> dget fs' n = dget fs n) ->
  stored fuel h0 h' fs' c limit ignore sep fname l.
Proof.
  induction fuel as [|fuel IH]; intros h0 h h' fs fs' c limit ignore sep fname l H Hh Hf; [exact H|]. cbn [stored visited] in *. destruct H as (asides & N & A & K & B1 & B2 & B3 & B4 & F & S).
  assert (E : forall a, at_ h' l a = at_ h l a) by (intros a; unfold at_; rewrite Hh by (left; reflexivity); reflexivity).
  exists asides. split; [exact N|]. split; [exact A|]. split; [intros a Hb; rewrite E; apply K; exact Hb|]. rewrite !E. do 4 (split; [assumption|]). split.
  - apply Forall_forall. intros [a v] Hin. rewrite Forall_forall in F. apply (file_ok_frame c fname ignore fs); [|apply F; exact Hin]. cbn [fst]. intros n Hn. apply (Hf a); [|exact Hn]. apply (dget_aside_key asides sep limit ignore _ A). apply (in_map fst) in Hin. exact Hin.
  - intros a l' Hin. apply (IH h0 h h' fs fs'); [apply S; exact Hin | |].
    + intros n Hn. apply Hh. right. apply in_flat_map. exists (a, VSub l'). split; assumption.
    + intros b n _ Hu. apply (Hf a); [|eapply child_under; exact Hu]. unfold kept in Hin. apply filter_In in Hin. destruct Hin as [Hin _]. apply (in_map fst) in Hin. exact Hin.
Qed.
Lemma kept_names : forall sep limit ignore (A : attrs), NoDup (map fst A) ->
  filter (fun av => negb (memb (fst av) (match sep with Some s => s | None => detect limit A end ++ ignore))) A = kept sep limit ignore A.
Proof.
  intros sep limit ignore A N. unfold kept. apply filter_ext_in. intros [a v] Hin. cbn [fst]. f_equal. unfold out. cbn [fst snd].
  assert (M : forall x l1 l2, @memb attr _ x (l1 ++ l2) = memb x l1 || memb x l2) by (intros; unfold memb; destruct (in_dec eq_dec x (l1 ++ l2)) as [I|I], (in_dec eq_dec x l1), (in_dec eq_dec x l2); cbn; try reflexivity; rewrite in_app_iff in I; tauto).
  rewrite M, orb_comm. f_equal. destruct sep as [s|]; [reflexivity|]. destruct (large limit v) eqn:L.
  - apply memb_true. unfold detect. apply in_map_iff. exists (a, v). split; [reflexivity|]. apply filter_In. split; [exact Hin | exact L].
  - apply memb_false. intros I. unfold detect in I. apply in_map_iff in I. destruct I as ([a' v'] & E & I). cbn [fst] in E. subst a'. apply filter_In in I. destruct I as [I L']. cbn [snd] in L'.
    apply (In_dget A a v N) in Hin. apply (In_dget A a v' N) in I. assert (v' = v) by congruence. subst v'. change (is_large limit v) with (large limit v) in L'. congruence.
Qed.
Lemma NoDup_app_parts : forall {A} (l m : list A), NoDup (l ++ m) -> NoDup l /\ NoDup m /\ forall x, In x l -> ~ In x m.
Proof.
  induction l as [|x l IH]; intros m H; [split; [constructor|]; split; [exact H | intros y []]|]. inversion H as [|? ? NI ND]; subst. destruct (IH m ND) as (A1 & A2 & A3). split; [|split; [exact A2|]].
  - constructor; [intros X; apply NI; apply in_or_app; left; exact X | exact A1].
  - intros y [->|Hy]; [intros X; apply NI; apply in_or_app; right; exact X | exact (A3 y Hy)].
Qed.

(** ** Saving stores everything *)
Lemma visited_self : forall fuel h sep limit ignore l, fuel <> 0 -> In l (visited fuel h sep limit ignore l).
Proof. intros [|f] h sep limit ignore l H; [congruence|]. left. reflexivity. Qed.
Definition sub_visits (f : nat) (h0 : heap) (limit : Z) (ignore : list attr) (items : attrs) : list loc :=
  flat_map (fun av => match snd av with VSub l' => visited f h0 None limit ignore l' | _ => [] end) items.
Definition saves_well (f : nat) (h0 : heap) (limit : Z) (ignore : list attr) (c : bool) : Prop :=
  forall l fname sep w rs w', (forall n, In n (visited f h0 sep limit ignore l) -> dget (w_heap w) n = dget h0 n) ->
  NoDup (visited f h0 sep limit ignore l) -> good_names sep ignore h0 (visited f h0 sep limit ignore l) -> wf_heap h0 ->
  save_specials f l fname sep limit ignore c w = (Ok rs, w') ->
  (forall n, ~ In n (visited f h0 sep limit ignore l) -> dget (w_heap w') n = dget (w_heap w) n) /\
  (forall n, (forall a, In a (map fst (dget_or h0 l [])) -> ~ under fname a n) -> dget (w_fs w') n = dget (w_fs w) n) /\
  stored f h0 (w_heap w') (w_fs w') c limit ignore sep fname l.
Lemma each_sub_stored : forall f h0 limit ignore c fname, saves_well f h0 limit ignore c -> wf_heap h0 -> forall items w subs rs w',
  NoDup (map fst items) -> (forall a, In a (map fst items) -> ~ In 46%N a) ->
  (forall n, In n (sub_visits f h0 limit ignore items) -> dget (w_heap w) n = dget h0 n) -> NoDup (sub_visits f h0 limit ignore items) ->
  good_names None ignore h0 (sub_visits f h0 limit ignore items) ->
  each_sub (fun l' a w' => save_specials f l' (join dot [fname; a]) None limit ignore c w') items w = (Ok (subs, rs), w') ->
  subs = sub_names items /\
  (forall n, ~ In n (sub_visits f h0 limit ignore items) -> dget (w_heap w') n = dget (w_heap w) n) /\
  (forall n, (forall a, In a (map fst items) -> ~ under fname a n) -> dget (w_fs w') n = dget (w_fs w) n) /\
  (forall a l', In (a, VSub l') items -> stored f h0 (w_heap w') (w_fs w') c limit ignore None (join dot [fname; a]) l').
Proof.
  intros f h0 limit ignore c fname SW W. induction items as [|[a v] items IH]; intros w subs rs w' N D Ag ND G H; cbn [each_sub] in H.
  - injection H as <- <- <-. split; [reflexivity|]. split; [reflexivity|]. split; [reflexivity|]. intros ? ? [].
  - inversion N as [|? ? NI N']; subst. assert (D' : forall x, In x (map fst items) -> ~ In 46%N x) by (intros x Hx; apply D; right; exact Hx).
    assert (Other : (forall l, v <> VSub l) -> each_sub (fun l' a w' => save_specials f l' (join dot [fname; a]) None limit ignore c w') items w = (Ok (subs, rs), w') ->
      sub_visits f h0 limit ignore ((a, v) :: items) = sub_visits f h0 limit ignore items -> subs = sub_names ((a, v) :: items) /\
      (forall n, ~ In n (sub_visits f h0 limit ignore ((a, v) :: items)) -> dget (w_heap w') n = dget (w_heap w) n) /\
      (forall n, (forall x, In x (map fst ((a, v) :: items)) -> ~ under fname x n) -> dget (w_fs w') n = dget (w_fs w) n) /\
      (forall x l', In (x, VSub l') ((a, v) :: items) -> stored f h0 (w_heap w') (w_fs w') c limit ignore None (join dot [fname; x]) l')).
    { intros NV E SV. rewrite SV in *. destruct (IH w subs rs w' N' D' Ag ND G E) as (I1 & I2 & I3 & I4). split; [|split; [exact I2|split]].
      - rewrite I1. unfold sub_names. cbn [filter snd]. destruct v; try reflexivity. exfalso. exact (NV l eq_refl).
      - intros n Hn. apply I3. intros x Hx. apply Hn. right. exact Hx.
      - intros x l' [Hx|Hx]; [injection Hx as _ Hx; exfalso; exact (NV l' Hx) | apply I4; exact Hx]. }
    destruct v as [| |l| | |]; try (apply Other; [discriminate | exact H | reflexivity]). clear Other.
    match type of H with context [save_specials f l ?x ?y limit ignore c w] => destruct (save_specials f l x y limit ignore c w) as [[r1|e] w1] eqn:S end; [|discriminate].
    destruct (each_sub _ items w1) as [[[subs2 r2]|e] w2] eqn:E2; [|discriminate]. injection H as <- <- <-.
    assert (SV : sub_visits f h0 limit ignore ((a, VSub l) :: items) = visited f h0 None limit ignore l ++ sub_visits f h0 limit ignore items) by reflexivity. rewrite SV in *.
    destruct (NoDup_app_parts _ _ ND) as (ND1 & ND2 & DJ).
    assert (G1 : good_names None ignore h0 (visited f h0 None limit ignore l)) by (destruct G as [Ga Gb]; split; [intros n x u Hn; apply Ga; apply in_or_app; left; exact Hn | exact Gb]).
    assert (G2 : good_names None ignore h0 (sub_visits f h0 limit ignore items)) by (destruct G as [Ga Gb]; split; [intros n x u Hn; apply Ga; apply in_or_app; right; exact Hn | exact Gb]).
    destruct (SW l _ None w r1 w1 (fun n Hn => Ag n (in_or_app _ _ _ (or_introl Hn))) ND1 G1 W S) as (S1 & S2 & S3).
    assert (Ag2 : forall n, In n (sub_visits f h0 limit ignore items) -> dget (w_heap w1) n = dget h0 n).
    { intros n Hn. rewrite S1; [apply Ag; apply in_or_app; right; exact Hn|]. intros X. exact (DJ n X Hn). }
    destruct (IH w1 subs2 r2 w2 N' D' Ag2 ND2 G2 E2) as (I1 & I2 & I3 & I4). split; [|split; [|split]].
    + rewrite I1. reflexivity.
    + intros n Hn. rewrite I2 by (intros X; apply Hn; apply in_or_app; right; exact X). apply S1. intros X. apply Hn. apply in_or_app. left. exact X.
    + intros n Hn. rewrite I3 by (intros x Hx; apply Hn; right; exact Hx). apply S2. intros x _ Hu. apply child_under in Hu. exact (Hn a (or_introl eq_refl) Hu).
    + intros x l' [Hx|Hx]; [|apply I4; exact Hx]. injection Hx as <- <-. apply (stored_frame f h0 (w_heap w1) (w_heap w2) (w_fs w1) (w_fs w2)); [exact S3 | |].
      * intros n Hn. apply I2. apply DJ. exact Hn.
      * intros b n _ Hu. apply child_under in Hu. apply I3. intros y Hy Huy. assert (a = y) by (apply (under_disj fname a y n); [apply D; left; reflexivity | apply D'; exact Hy | exact Hu | exact Huy]). subst y. contradiction.
Qed.
Lemma book_all : forall k subs w l, at_ (w_heap (bookkeeping k subs w l)) l a_subs = Some (VNames subs) /\ at_ (w_heap (bookkeeping k subs w l)) l a_numpys = Some (VNames (k_numpys k)) /\
  at_ (w_heap (bookkeeping k subs w l)) l a_scipys = Some (VNames (k_scipys k)) /\ at_ (w_heap (bookkeeping k subs w l)) l a_ignoreds = Some (VNames (k_ignoreds k)).
Proof.
  intros. unfold bookkeeping. rewrite !setattr_heap, !at_hset. destruct (eq_dec l l); [|congruence].
  repeat split; reflexivity.
Qed.
Lemma book_frame : forall k subs w l n, n <> l -> dget (w_heap (bookkeeping k subs w l)) n = dget (w_heap w) n.
Proof. intros k subs w l n H. unfold bookkeeping. rewrite !setattr_heap. unfold hset. rewrite !dget_dset_other by congruence. reflexivity. Qed.
Lemma at_in : forall h l a v, wf_heap h -> In (a, v) (dget_or h l []) -> at_ h l a = Some v.
Proof. intros h l a v W Hin. unfold at_, dget_or in *. destruct (dget h l) as [A|] eqn:E; [|destruct Hin]. apply In_dget; [exact (W l A E) | exact Hin]. Qed.
Lemma wf_or : forall h l, wf_heap h -> NoDup (map fst (dget_or h l [])).
Proof. intros h l W. unfold dget_or. destruct (dget h l) as [A|] eqn:E; [exact (W l A E) | constructor]. Qed.
Lemma save_stored : forall f h0 limit ignore c, saves_well f h0 limit ignore c.
Proof.
  induction f as [|f IH]; intros h0 limit ignore c l fname sep w rs w' Ag ND G W H; cbn [save_specials] in H; [discriminate|].
  assert (EA : attrs_of w l = dget_or h0 l []) by (unfold attrs_of, dget_or; rewrite Ag by (left; reflexivity); reflexivity). rewrite EA in H.
  set (A := dget_or h0 l []) in *. assert (NA : NoDup (map fst A)) by (apply wf_or; exact W).
  set (sp := match sep with Some s => s | None => detect limit A end) in H. pose proof (set_aside_spec (sp ++ ignore) [] A NA) as SS. destruct (set_aside (sp ++ ignore) [] A) as [asides self]. destruct SS as (Sf & Sd & Sn). specialize (Sn (NoDup_nil _)).
  unfold sp in Sf. rewrite (kept_names sep limit ignore A NA) in Sf. fold sp in Sf.
  assert (Sd' : forall a, dget asides a = match dget A a with Some v => if out sep limit ignore (a, v) then Some v else None | None => None end).
  { intros a. rewrite Sd. destruct (dget A a) as [v|] eqn:Ga; [|reflexivity].
    assert (X : dget (filter (fun av => negb (memb (fst av) (sp ++ ignore))) A) a = dget (kept sep limit ignore A) a) by (f_equal; apply kept_names; exact NA).
    rewrite (dget_filter_key (fun k => negb (memb k (sp ++ ignore)))) in X. rewrite Ga in X.
    assert (Y : dget (kept sep limit ignore A) a = if out sep limit ignore (a, v) then None else Some v).
    { destruct (out sep limit ignore (a, v)) eqn:O.
      - apply dget_None. intros I. apply in_map_iff in I. destruct I as ([a' v'] & E & I). cbn [fst] in E. subst a'. apply filter_In in I. destruct I as [I O']. apply (In_dget A a v' NA) in I. assert (v' = v) by congruence. subst v'. rewrite O in O'. discriminate.
      - apply In_dget; [apply (NoDup_dkeys_filter _ A NA)|]. apply filter_In. split; [apply dget_In; exact Ga | rewrite O; reflexivity]. }
    rewrite Y in X. match goal with |- (if ?b then _ else _) = _ => match type of X with (if negb ?b' then _ else _) = _ => destruct b' end end; cbn [negb] in X; cbn [dget]; destruct (out sep limit ignore (a, v)); congruence. }
  cbn [visited] in Ag, ND, G |- *. fold A in Ag, ND, G |- *. rewrite <- Sf in Ag, ND, G |- *. fold (sub_visits f h0 limit ignore self) in Ag, ND, G |- *. inversion ND as [|? ? NIl ND']; subst x l0.
  assert (Keys : forall a, In a (map fst A) -> ~ In 46%N a).
  { intros a Ha. apply in_map_iff in Ha. destruct Ha as ([a' v] & E & Ha). cbn [fst] in E. subst a'. apply (proj1 G l a v); [left; reflexivity | apply at_in; assumption]. }
  assert (SelfA : forall x, In x (map fst self) -> In x (map fst A)) by (intros x Hx; apply in_map_iff in Hx; destruct Hx as (av & E & Hx); rewrite Sf in Hx; apply filter_In in Hx; apply in_map_iff; exists av; tauto).
  destruct (each_sub _ self (set_attrs w l self)) as [[[subs restores]|e] w2] eqn:ES; [|discriminate].
  destruct (each_sub_stored f h0 limit ignore c fname (IH h0 limit ignore c) W self (set_attrs w l self) subs restores w2) as (E1 & E2 & E3 & E4).
  - rewrite Sf. apply (NoDup_dkeys_filter _ A NA).
  - intros a Ha. apply Keys, SelfA, Ha.
  - intros n Hn. cbn [set_attrs w_heap]. rewrite dget_dset_other by (intros <-; contradiction). apply Ag. right. exact Hn.
  - exact ND'.
  - destruct G as [Ga Gb]. split; [intros n x u Hn; apply Ga; right; exact Hn | intros x Hx; split; [apply (Gb x Hx) | exact Logic.I]].
  - exact ES.
  - destruct (store_all c fname ignore asides (mkKinds [] [] []) w2) as [[[k|e] asides'] w3] eqn:ST; [|discriminate]. injection H as <- <-.
    assert (AsA : forall x, In x (map fst asides) -> In x (map fst A)) by (apply (dget_aside_key asides sep limit ignore A Sd')).
    pose proof (store_all_keeps c fname ignore asides (mkKinds [] [] []) w2) as SK. rewrite ST in SK. destruct SK as [-> H3].
    destruct (store_all_ok c fname ignore asides _ w2 k asides w3 Sn (fun a Ha => Keys a (AsA a Ha)) ST) as (Ek & Ff & Fo). destruct (kinds_of ignore asides) as [k1 k2 k3] eqn:EK. cbn [k_numpys k_scipys k_ignoreds app] in Ek. subst k.
    assert (AtL : forall a, at_ (w_heap w2) l a = dget self a) by (intros a; unfold at_; rewrite E2 by exact NIl; cbn [set_attrs w_heap]; rewrite dget_dset_same; reflexivity).
    split; [|split].
    + intros n Hn. rewrite book_frame by (intros ->; apply Hn; left; reflexivity). rewrite H3, E2 by (intros X; apply Hn; right; exact X). cbn [set_attrs w_heap]. apply dget_dset_other. intros ->. apply Hn. left. reflexivity.
    + intros n Hn. change (w_fs (bookkeeping _ _ w3 l)) with (w_fs w3). rewrite Ff by (intros a Ha; apply Hn, AsA, Ha). rewrite E3 by (intros a Ha; apply Hn, SelfA, Ha). reflexivity.
    + cbn [stored]. fold A. rewrite <- Sf. exists asides. rewrite EK. cbn [k_numpys k_scipys k_ignoreds]. destruct (book_all (mkKinds k1 k2 k3) subs w3 l) as (B1 & B2 & B3 & B4).
      split; [exact Sn|]. split; [exact Sd'|]. split; [intros a Hb; rewrite book_at by exact Hb; rewrite H3; apply AtL|]. split; [rewrite B1, E1; reflexivity|]. split; [exact B2|]. split; [exact B3|]. split; [exact B4|]. split; [exact Fo|].
      intros a l' Hin. change (w_fs (bookkeeping _ _ w3 l)) with (w_fs w3).
      assert (InV : forall n, In n (visited f h0 None limit ignore l') -> In n (sub_visits f h0 limit ignore self)) by (intros n Hn; apply in_flat_map; exists (a, VSub l'); split; assumption).
      apply (stored_frame f h0 (w_heap w2) _ (w_fs w2)); [apply E4; exact Hin | |].
      * intros n Hn. rewrite book_frame by (intros ->; apply NIl, InV, Hn). rewrite H3. reflexivity.
      * intros b n _ Hu. apply child_under in Hu. apply Ff. intros x Hx Hux.
        assert (Ka : In a (map fst self)) by (apply (in_map fst) in Hin; exact Hin).
        assert (a = x) by (apply (under_disj fname a x n); [apply Keys, SelfA, Ka | apply Keys, AsA, Hx | exact Hu | exact Hux]). subst x.
        apply in_map_iff in Hx. destruct Hx as ([a' v] & Ea & Hx). cbn [fst] in Ea. subst a'. apply (In_dget asides a v Sn) in Hx. rewrite Sd' in Hx. rewrite Sf in Hin. unfold kept in Hin. apply filter_In in Hin. destruct Hin as [Hin O]. apply (In_dget A a (VSub l') NA) in Hin. rewrite Hin in Hx. destruct (out sep limit ignore (a, VSub l')); [discriminate O | discriminate Hx].
Qed.

(** ** Loading what was stored *)
Lemma rfold_hset : forall (step : heap -> attr -> result heap) (g : attr -> value) l names h, (forall a h, In a names -> step h a = Ok (hset h l a (g a))) ->
  rfold step names h = Ok (fold_left (fun h a => hset h l a (g a)) names h).
Proof. intros step g l names. induction names as [|a names IH]; intros h H; [reflexivity|]. cbn [rfold fold_left]. rewrite H by (left; reflexivity). cbn [rbind]. apply IH. intros a' h' Ha. apply H. right. exact Ha. Qed.
Lemma fold_hset_at : forall (g : attr -> value) l names h n a, at_ (fold_left (fun h a => hset h l a (g a)) names h) n a = if eq_dec l n then if in_dec eq_dec a names then Some (g a) else at_ h n a else at_ h n a.
Proof.
  intros g l names. induction names as [|x names IH]; intros h n a; cbn [fold_left]; [destruct (eq_dec l n); reflexivity|]. rewrite IH, at_hset. destruct (eq_dec l n) as [<-|]; [|reflexivity].
  destruct (in_dec eq_dec a names) as [I|I]; destruct (in_dec eq_dec a (x :: names)) as [J|J]; try reflexivity; [exfalso; apply J; right; exact I | |].
  - destruct J as [->|J]; [|contradiction]. destruct (eq_dec a a); [reflexivity | congruence].
  - destruct (eq_dec x a) as [->|]; [exfalso; apply J; left; reflexivity | reflexivity].
Qed.
Lemma fold_hset_frame : forall (g : attr -> value) l names h n, n <> l -> dget (fold_left (fun h a => hset h l a (g a)) names h) n = dget h n.
Proof. intros g l names. induction names as [|x names IH]; intros h n N; [reflexivity|]. cbn [fold_left]. rewrite IH by exact N. unfold hset. apply dget_dset_other. congruence. Qed.
Lemma names_at : forall h l a, names_of h l a = match at_ h l a with None => Ok [] | Some (VNames ns) => Ok ns | Some _ => Err TypeError end.
Proof. intros. unfold names_of, at_, dget_or. destruct (dget h l); reflexivity. Qed.
Definition stored_array (asides : attrs) (a : attr) : value := match dget asides a with Some (VArr s d) => VArr (contiguous s) d | Some v => v | None => VNone end.
Definition loads_well (f : nat) (h0 hs : heap) (fs : dict pystr content) (c : bool) (limit : Z) (ignore : list attr) : Prop :=
  forall l fname sep h, stored f h0 hs fs c limit ignore sep fname l -> (forall n, In n (visited f h0 sep limit ignore l) -> dget h n = dget hs n) ->
  NoDup (visited f h0 sep limit ignore l) -> good_names sep ignore h0 (visited f h0 sep limit ignore l) ->
  exists h', load_specials f fs l fname false c h = Ok h' /\ (forall n, ~ In n (visited f h0 sep limit ignore l) -> dget h' n = dget h n) /\
    (forall a, ~ book a -> at_ h' l a = expected sep limit ignore h0 l a) /\
    (forall n a, ~ book a -> In n (visited f h0 sep limit ignore l) -> n <> l -> at_ h' n a = expected None limit ignore h0 n a).
Lemma each_load : forall f h0 hs fs c limit ignore l fname self, loads_well f h0 hs fs c limit ignore -> 
  forall items h, (forall a l', In (a, VSub l') items -> at_ h l a = Some (VSub l') /\ stored f h0 hs fs c limit ignore None (join dot [fname; a]) l') ->
  (forall n, In n (sub_visits f h0 limit ignore items) -> dget h n = dget hs n) -> NoDup (l :: sub_visits f h0 limit ignore items) ->
  good_names None ignore h0 (sub_visits f h0 limit ignore items) -> self = l ->
  exists h' : heap, rfold (fun (h : heap) (a : attr) => match dget (dget_or h l []) a with Some (VSub l') => load_specials f fs l' (join dot [fname; a]) false c h | _ => Err AttributeErr end) (sub_names items) h = Ok h' /\
    (forall n, ~ In n (sub_visits f h0 limit ignore items) -> dget h' n = dget h n) /\
    (forall n a, ~ book a -> In n (sub_visits f h0 limit ignore items) -> at_ h' n a = expected None limit ignore h0 n a).
Proof.
  intros f h0 hs fs c limit ignore l fname self LW. induction items as [|[a v] items IH]; intros h S Ag ND G Eself.
  - exists h. split; [reflexivity|]. split; [reflexivity|]. intros n a _ [].
  - assert (Other : (forall l', v <> VSub l') -> sub_names ((a, v) :: items) = sub_names items /\ sub_visits f h0 limit ignore ((a, v) :: items) = sub_visits f h0 limit ignore items).
    { intros NV. unfold sub_names, sub_visits. cbn [filter flat_map snd]. destruct v; try (split; reflexivity). exfalso. exact (NV l0 eq_refl). }
    assert (SI : forall x l', In (x, VSub l') items -> at_ h l x = Some (VSub l') /\ stored f h0 hs fs c limit ignore None (join dot [fname; x]) l') by (intros x l' Hx; apply S; right; exact Hx).
    destruct v as [| |l1| | |]; try (destruct Other as [O1 O2]; [discriminate|]; rewrite O1, O2 in *; apply IH; assumption). clear Other.
    assert (SV : sub_visits f h0 limit ignore ((a, VSub l1) :: items) = visited f h0 None limit ignore l1 ++ sub_visits f h0 limit ignore items) by reflexivity. rewrite SV in *.
    change (sub_names ((a, VSub l1) :: items)) with (a :: sub_names items). cbn [rfold].
    destruct (S a l1 (or_introl eq_refl)) as [Sa Ss]. unfold at_ in Sa.
    assert (X : dget (dget_or h l []) a = Some (VSub l1)) by (unfold dget_or; destruct (dget h l); [exact Sa | discriminate]). rewrite X.
    inversion ND as [|? ? NIl ND']; subst x l0.
    destruct (NoDup_app_parts _ _ ND') as (ND1 & ND2 & DJ).
    destruct (LW l1 (join dot [fname; a]) None h Ss (fun n Hn => Ag n (in_or_app _ _ _ (or_introl Hn)))) as (h1 & L1 & L2 & L3 & L4).
    + exact ND1.
    + destruct G as [Ga Gb]. split; [intros n x u Hn; apply Ga; apply in_or_app; left; exact Hn | exact Gb].
    + rewrite L1. cbn [rbind]. destruct (IH h1) as (h2 & R1 & R2 & R3).
      * intros x l' Hx. split; [|apply SI; exact Hx]. unfold at_. rewrite L2 by (intros Y; apply NIl; apply in_or_app; left; exact Y). apply (SI x l' Hx).
      * intros n Hn. rewrite L2 by (intros Y; exact (DJ n Y Hn)). apply Ag. apply in_or_app. right. exact Hn.
      * constructor; [intros Y; apply NIl; apply in_or_app; right; exact Y | exact ND2].
      * destruct G as [Ga Gb]. split; [intros n x u Hn; apply Ga; apply in_or_app; right; exact Hn | exact Gb].
      * exact Eself.
      * exists h2. split; [exact R1|]. split.
        -- intros n Hn. rewrite R2 by (intros Y; apply Hn; apply in_or_app; right; exact Y). apply L2. intros Y. apply Hn. apply in_or_app. left. exact Y.
        -- intros n x Hb Hn. apply in_app_iff in Hn. destruct Hn as [Hn|Hn]; [|apply R3; assumption]. unfold at_. rewrite R2 by (apply DJ; exact Hn). fold (at_ h1 n x). destruct (Nat.eq_dec n l1) as [->|NE]; [apply L3; exact Hb | apply L4; assumption].
Qed.
Lemma in_class : forall (P : attr * value -> bool) (asides : attrs) a, NoDup (map fst asides) -> (In a (map fst (filter P asides)) <-> exists v, dget asides a = Some v /\ P (a, v) = true).
Proof.
  intros P asides a N. split.
  - intros H. apply in_map_iff in H. destruct H as ([a' v] & E & H). cbn [fst] in E. subst a'. apply filter_In in H. destruct H as [H1 H2]. exists v. split; [apply In_dget; assumption | exact H2].
  - intros (v & G & H). apply in_map_iff. exists (a, v). split; [reflexivity|]. apply filter_In. split; [apply dget_In; exact G | exact H].
Qed.
Lemma load_stored : forall h0 hs fs c limit ignore, wf_heap h0 -> forall f, loads_well f h0 hs fs c limit ignore.
Proof.
  intros h0 hs fs c limit ignore W. induction f as [|f IH]; intros l fname sep h S Ag ND G; [destruct S|]. cbn [stored] in S. cbn [visited] in Ag, ND, G |- *.
  set (A := dget_or h0 l []) in S, Ag, ND, G |- *. assert (NA : NoDup (map fst A)) by (apply wf_or; exact W).
  set (self := kept sep limit ignore A) in S, Ag, ND, G |- *. fold (sub_visits f h0 limit ignore self) in Ag, ND, G |- *. destruct S as (asides & N & D & K & B1 & B2 & B3 & B4 & Fo & Sub).
  assert (El : dget h l = dget hs l) by (apply Ag; left; reflexivity). inversion ND as [|? ? NIl ND']; subst x l0.
  assert (Eat : forall a, at_ h l a = at_ hs l a) by (intros a; unfold at_; rewrite El; reflexivity).
  assert (NB : forall a v, dget asides a = Some v -> ~ book a).
  { intros a v Ga Hb. rewrite D in Ga. destruct (dget A a) as [u|] eqn:GA; [|discriminate]. destruct (out sep limit ignore (a, u)) eqn:O; [|discriminate].
    assert (AA : at_ h0 l a = Some u) by (apply at_in; [exact W | apply dget_In; exact GA]).
    destruct (proj2 (proj1 G l a u (or_introl eq_refl) AA) Hb) as (ns & ->). destruct (proj2 G a Hb) as [G1 G2]. unfold out in O. cbn [fst snd large] in O. apply orb_true_iff in O. destruct O as [O|O]; [apply memb_true in O; contradiction|].
    destruct sep as [s|]; [apply memb_true in O; contradiction | discriminate O]. }
  assert (NK : forall (P : attr * value -> bool) a, book a -> ~ In a (map fst (filter P asides))) by (intros P a Hb Hin; apply (in_class P asides a N) in Hin; destruct Hin as (v & Hv & _); exact (NB a v Hv Hb)).
  assert (KeptAt : forall a v, In (a, v) self -> (forall ns, v <> VNames ns) -> at_ h l a = Some v).
  { intros a v Hin NV. rewrite Eat. assert (Hb : ~ book a).
    { intros Hb. unfold self, kept in Hin. apply filter_In in Hin. destruct Hin as [Hin _]. destruct (proj2 (proj1 G l a v (or_introl eq_refl) (at_in h0 l a v W Hin)) Hb) as (ns & ->). exact (NV ns eq_refl). }
    rewrite K by exact Hb. apply In_dget; [apply (NoDup_dkeys_filter _ A NA) | exact Hin]. }
  cbn [load_specials]. rewrite names_at, Eat, B1. cbn [rbind].
  destruct (each_load f h0 hs fs c limit ignore l fname l IH self h) as (h1 & R1 & R2 & R3).
  { intros a l' Hin. split; [apply KeptAt; [exact Hin | discriminate] | apply Sub; exact Hin]. }
  { intros n Hn. apply Ag. right. exact Hn. }
  { exact ND. }
  { destruct G as [Ga Gb]. split; [intros n x u Hn; apply Ga; right; exact Hn | intros x Hx; split; [apply (Gb x Hx) | exact Logic.I]]. }
  { reflexivity. }
  fold self. rewrite R1. cbn [rbind]. assert (E1 : dget h1 l = dget hs l) by (rewrite R2 by exact NIl; exact El).
  assert (E1at : forall a, at_ h1 l a = at_ hs l a) by (intros a; unfold at_; rewrite E1; reflexivity).
  rewrite names_at, E1at, B2. cbn [rbind]. rewrite Forall_forall in Fo.
  rewrite (rfold_hset (load_array fs fname false c l) (stored_array asides) l).
  2:{ intros a h2 Ha. cbn [kinds_of k_numpys] in Ha. apply (in_class (is_numpy ignore) asides a N) in Ha. destruct Ha as (v & Hv & Hn). unfold is_numpy in Hn. cbn [fst snd] in Hn. apply andb_true_iff in Hn. destruct Hn as [Hn1 Hn2]. destruct v as [s d| | | | |]; try discriminate.
      destruct (Fo (a, VArr s d) (dget_In _ _ _ Hv)) as [X|X]; cbn [fst snd] in X; [rewrite X in Hn1; discriminate|]. unfold load_array, np_load, stored_array. rewrite andb_false_r, X, Hv. reflexivity. }
  cbn [rbind]. set (h2 := fold_left _ _ h1). assert (E2 : forall n a, at_ h2 n a = if eq_dec l n then if in_dec eq_dec a (map fst (filter (is_numpy ignore) asides)) then Some (stored_array asides a) else at_ h1 n a else at_ h1 n a) by (intros; apply fold_hset_at).
  rewrite names_at, E2. destruct (eq_dec l l) as [_|]; [|congruence]. destruct (in_dec eq_dec a_scipys _) as [X|_]; [exfalso; apply (NK (is_numpy ignore) a_scipys); [right; left; reflexivity | exact X]|]. rewrite E1at, B3. cbn [rbind].
  rewrite (rfold_hset (load_sparse fs fname false c l) (stored_array asides) l).
  2:{ intros a h3 Ha. cbn [kinds_of k_scipys] in Ha. apply (in_class (is_scipy ignore) asides a N) in Ha. destruct Ha as (v & Hv & Hn). unfold is_scipy in Hn. cbn [fst snd] in Hn. apply andb_true_iff in Hn. destruct Hn as [Hn1 Hn2]. destruct v as [|arrs rest| | | |]; try discriminate.
      destruct (Fo (a, VSparse arrs rest) (dget_In _ _ _ Hv)) as [X|X]; cbn [fst snd] in X; [rewrite X in Hn1; discriminate|]. destruct arrs as [[[d p] i]|]; [|destruct X]. destruct X as [X1 X2].
      unfold load_sparse, np_load, stored_array. rewrite X1, Hv. cbn [rbind]. destruct c; [rewrite X2; reflexivity|]. destruct X2 as (Y1 & Y2 & Y3). rewrite Y1. cbn [rbind]. rewrite Y2. cbn [rbind]. rewrite Y3. reflexivity. }
  cbn [rbind]. set (h3 := fold_left _ _ h2). assert (E3 : forall n a, at_ h3 n a = if eq_dec l n then if in_dec eq_dec a (map fst (filter (is_scipy ignore) asides)) then Some (stored_array asides a) else at_ h2 n a else at_ h2 n a) by (intros; apply fold_hset_at).
  rewrite names_at, E3, E2. destruct (eq_dec l l) as [_|]; [|congruence]. destruct (in_dec eq_dec a_ignoreds _) as [X|_]; [exfalso; apply (NK (is_scipy ignore) a_ignoreds); [right; right; left; reflexivity | exact X]|].
  destruct (in_dec eq_dec a_ignoreds _) as [X|_]; [exfalso; apply (NK (is_numpy ignore) a_ignoreds); [right; right; left; reflexivity | exact X]|]. rewrite E1at, B4. cbn [rbind].
  eexists. split; [reflexivity|]. set (PI := fun av : attr * value => negb (is_numpy ignore av) && negb (is_scipy ignore av)). cbn [kinds_of k_ignoreds]. fold PI.
  set (h4 := fold_left _ _ h3). assert (E4 : forall n a, at_ h4 n a = if eq_dec l n then if in_dec eq_dec a (map fst (filter PI asides)) then Some VNone else at_ h3 n a else at_ h3 n a) by (intros; apply (fold_hset_at (fun _ => VNone))).
  assert (F4 : forall n, n <> l -> dget h4 n = dget h1 n).
  { intros n NE. unfold h4. rewrite (fold_hset_frame (fun _ => VNone)) by exact NE. unfold h3. rewrite fold_hset_frame by exact NE. unfold h2. apply fold_hset_frame. exact NE. }
  split; [|split].
  - intros n Hn. rewrite F4 by (intros ->; apply Hn; left; reflexivity). apply R2. intros X. apply Hn. right. exact X.
  - intros a Hb. rewrite E4, E3, E2. destruct (eq_dec l l) as [_|]; [|congruence]. rewrite E1at, K by exact Hb. unfold expected.
    assert (EA : at_ h0 l a = dget A a) by (unfold at_, A, dget_or; destruct (dget h0 l); reflexivity). rewrite EA. specialize (D a). destruct (dget A a) as [v|] eqn:GA.
    + destruct (out sep limit ignore (a, v)) eqn:O.
      * assert (CL : forall P, In a (map fst (filter P asides)) <-> P (a, v) = true).
        { intros P. rewrite (in_class P asides a N), D. split; [intros (u & E & Hu); injection E as <-; exact Hu | intros Hu; exists v; auto]. }
        destruct (in_dec eq_dec a (map fst (filter PI asides))) as [I1|I1]; [|destruct (in_dec eq_dec a (map fst (filter (is_scipy ignore) asides))) as [I2|I2]; [|destruct (in_dec eq_dec a (map fst (filter (is_numpy ignore) asides))) as [I3|I3]]].
        -- apply CL in I1. unfold PI, is_numpy, is_scipy in I1. cbn [fst snd] in I1. destruct (memb a ignore); [reflexivity|]. cbn [negb andb] in I1. destruct v; try reflexivity; discriminate.
        -- apply CL in I2. unfold is_scipy in I2. cbn [fst snd] in I2. destruct (memb a ignore); [discriminate|]. destruct v; try discriminate. unfold stored_array. rewrite D. reflexivity.
        -- apply CL in I3. unfold is_numpy in I3. cbn [fst snd] in I3. destruct (memb a ignore); [discriminate|]. destruct v as [s d| | | | |]; try discriminate. unfold stored_array. rewrite D. destruct s; reflexivity.
        -- exfalso. rewrite CL in I1, I2, I3. unfold PI in I1. destruct (is_numpy ignore (a, v)); [apply I3; reflexivity|]. destruct (is_scipy ignore (a, v)); [apply I2; reflexivity|]. apply I1. reflexivity.
      * assert (CL : forall P, ~ In a (map fst (filter P asides))) by (intros P X; apply (in_class P asides a N) in X; destruct X as (u & E & _); congruence).
        destruct (in_dec eq_dec a _) as [X|_]; [exfalso; exact (CL _ X)|]. destruct (in_dec eq_dec a _) as [X|_]; [exfalso; exact (CL _ X)|]. destruct (in_dec eq_dec a _) as [X|_]; [exfalso; exact (CL _ X)|].
        assert (M : memb a ignore = false) by (unfold out in O; cbn [fst] in O; apply orb_false_iff in O; apply O). rewrite M. apply In_dget; [apply (NoDup_dkeys_filter _ A NA)|]. apply filter_In. split; [apply dget_In; exact GA | rewrite O; reflexivity].
    + assert (CL : forall P, ~ In a (map fst (filter P asides))) by (intros P X; apply (in_class P asides a N) in X; destruct X as (u & E & _); congruence).
      destruct (in_dec eq_dec a _) as [X|_]; [exfalso; exact (CL _ X)|]. destruct (in_dec eq_dec a _) as [X|_]; [exfalso; exact (CL _ X)|]. destruct (in_dec eq_dec a _) as [X|_]; [exfalso; exact (CL _ X)|].
      apply dget_None. intros X. apply in_map_iff in X. destruct X as ([a' v'] & E & X). cbn [fst] in E. subst a'. apply filter_In in X. destruct X as [X _]. apply (In_dget A a v' NA) in X. congruence.
  - intros n a Hb Hn NE. destruct Hn as [Hn|Hn]; [congruence|]. unfold at_. rewrite F4 by exact NE. apply (R3 n a Hb Hn).
Qed.

(** ** The round trip *)
(** What was saved is loaded: every object reached once (a tree of objects) comes back with the same attributes, the ignored ones
    and the separate ones that are no arrays as None. *)
Theorem save_load_roundtrip : forall fuel l fname sep limit ignore w w', wf_heap (w_heap w) ->
  NoDup (visited fuel (w_heap w) sep limit ignore l) -> good_names sep ignore (w_heap w) (visited fuel (w_heap w) sep limit ignore l) ->
  save fuel l (ToName fname) sep limit ignore w = (Ok tt, w') ->
  exists h', load fuel (w_fs w') fname false = Ok (h', l) /\
    (forall a, ~ book a -> at_ h' l a = expected sep limit ignore (w_heap w) l a) /\
    (forall n a, ~ book a -> In n (visited fuel (w_heap w) sep limit ignore l) -> n <> l -> at_ h' n a = expected None limit ignore (w_heap w) n a).
Proof.
  intros fuel l fname sep limit ignore w w' W ND G H. cbn [save] in H. unfold smart_save in H. set (c := compressed fname) in *.
  destruct (save_specials fuel l fname sep limit ignore c w) as [[rs|e] w1] eqn:S; [|discriminate].
  destruct (save_stored fuel (w_heap w) limit ignore c l fname sep w rs w1 (fun n _ => eq_refl) ND G W S) as (_ & _ & St).
  destruct (write fname (CObject (w_heap w1) l) w1) as [r w2] eqn:Wr. injection H as -> <-. apply write_ok in Wr.
  assert (FS : forall rs w, w_fs (restore_all w rs) = w_fs w) by (clear; unfold restore_all; induction rs as [|x rs IH]; intros w; [reflexivity|]; cbn [fold_left]; rewrite IH; apply restore_fs).
  unfold load. rewrite FS, Wr, dget_dset_same. fold c.
  assert (St2 : stored fuel (w_heap w) (w_heap w1) (dset (w_fs w1) fname (CObject (w_heap w1) l)) c limit ignore sep fname l).
  { apply (stored_frame fuel (w_heap w) (w_heap w1) (w_heap w1) (w_fs w1)); [exact St | reflexivity|]. intros a n _ Hu. apply dget_dset_other. intros <-. exact (fname_not_under fname a Hu). }
  destruct (load_stored (w_heap w) (w_heap w1) _ c limit ignore W fuel l fname sep (w_heap w1) St2 (fun n _ => eq_refl) ND G) as (h' & L1 & _ & L3 & L4).
  rewrite L1. cbn [rbind]. exists h'. split; [reflexivity|]. split; assumption.
Qed.
Print Assumptions save_load_roundtrip.
(** Without [separately] and [ignore], everything comes back (arrays with at least one dimension). *)
Corollary save_load_all : forall fuel l fname limit w w', wf_heap (w_heap w) ->
  NoDup (visited fuel (w_heap w) None limit [] l) -> good_names None [] (w_heap w) (visited fuel (w_heap w) None limit [] l) ->
  (forall n a d, at_ (w_heap w) n a <> Some (VArr [] d)) ->
  save fuel l (ToName fname) None limit [] w = (Ok tt, w') ->
  exists h', load fuel (w_fs w') fname false = Ok (h', l) /\
    forall n a, ~ book a -> In n (visited fuel (w_heap w) None limit [] l) -> at_ h' n a = at_ (w_heap w) n a.
Proof.
  intros fuel l fname limit w w' W ND G Z H. destruct (save_load_roundtrip fuel l fname None limit [] w w' W ND G H) as (h' & L & A & B). exists h'. split; [exact L|]. intros n a Hb Hn.
  assert (E : at_ h' n a = expected None limit [] (w_heap w) n a) by (destruct (Nat.eq_dec n l) as [->|NE]; [apply A; exact Hb | apply B; assumption]). rewrite E. unfold expected. specialize (Z n a).
  destruct (at_ (w_heap w) n a) as [v|]; [|reflexivity]. change (memb a []) with false. cbn [out fst snd orb]. unfold out. change (memb (fst (a, v)) []) with false. cbn [orb snd].
  destruct (large limit v) eqn:Lg; [|reflexivity]. destruct v as [[|x s] d| | | | |]; try reflexivity; try discriminate Lg. exfalso. exact (Z d eq_refl).
Qed.
Print Assumptions save_load_all.

(** A model saved to a name that ends with .gz or .bz2 is compressed, and its arrays cannot be mapped into memory. *)
Lemma ends_with_app : forall p suf : pystr, ends_with suf (p ++ suf) = true.
Proof.
  intros p suf. unfold ends_with. rewrite app_length, (proj2 (Nat.leb_le _ _)) by lia. replace (length p + length suf - length suf) with (length p) by lia. rewrite skipn_app, skipn_all, Nat.sub_diag. cbn [app skipn andb]. apply eqb_refl.
Qed.
Theorem mmap_compressed : forall fuel fs (fname p suf : pystr) h l a names, In suf [str ".gz"; str ".bz2"] -> fname = p ++ suf -> dget fs fname = Some (CObject h l) ->
  names_of h l a_subs = Ok [] -> names_of h l a_numpys = Ok (a :: names) -> load (S fuel) fs fname true = Err OSErr.
Proof.
  intros fuel fs fname p suf h l a names Hs E D S1 S2. unfold load. rewrite D. assert (C : compressed fname = true).
  { rewrite E. unfold compressed. destruct Hs as [<-|[<-|[]]]; rewrite ends_with_app; [reflexivity | apply orb_true_r]. }
  rewrite C. cbn [load_specials]. rewrite S1. cbn [rbind rfold]. rewrite S2. reflexivity.
Qed.
Print Assumptions mmap_compressed.
Example mmap_ex : load 2 [(str "m.bz2", CObject [(0, [(a_numpys, VNames [str "x"])])] 0); (str "m.bz2.x.npz", CArr [1] [5]%Z)] (str "m.bz2") true = Err OSErr /\
  exists h, load 2 [(str "m.bz2", CObject [(0, [(a_numpys, VNames [str "x"])])] 0); (str "m.bz2.x.npz", CArr [1] [5]%Z)] (str "m.bz2") false = Ok (h, 0).
Proof. split; [reflexivity|]. eexists. reflexivity. Qed.

(** ** What goes wrong *)
Definition big : attr := str "big". Definition child : attr := str "child". Definition arr : attr := str "arr".
Definition family : heap := [(0, [(big, VArr [2] [1; 2]%Z); (child, VSub 1)]); (1, [(arr, VArr [2] [3; 4]%Z)])].
(** If the file of a nested object cannot be written, the outer object has lost its array. *)
Theorem nested_failure_refuted : exists w w', save 9 0 (ToName (str "m")) None 1 [] w = (Err OSErr, w') /\ at_ (w_heap w) 0 big = Some (VArr [2] [1; 2]%Z) /\ at_ (w_heap w') 0 big = None.
Proof. exists (mkWorld family [] (Some 0)). eexists. split; [vm_compute; reflexivity|]. split; reflexivity. Qed.
(** If the file of the outer object cannot be written, the nested object has lost its array. *)
Theorem outer_failure_refuted : exists w w', save 9 0 (ToName (str "m")) None 1 [] w = (Err OSErr, w') /\ at_ (w_heap w) 1 arr = Some (VArr [2] [3; 4]%Z) /\ at_ (w_heap w') 1 arr = None.
Proof. exists (mkWorld family [] (Some 1)). eexists. split; [vm_compute; reflexivity|]. split; reflexivity. Qed.
(** An object held by two attributes is saved twice, the second time without its array, which is then missing after loading. *)
Theorem shared_refuted : exists w w' h', save 9 0 (ToName (str "m")) None 1 [] w = (Ok tt, w') /\ at_ (w_heap w) 1 arr = Some (VArr [2] [3; 4]%Z) /\
  load 9 (w_fs w') (str "m") false = Ok (h', 0) /\ at_ h' 0 child = Some (VSub 1) /\ at_ h' 1 arr = None.
Proof.
  exists (mkWorld [(0, [(big, VSub 1); (child, VSub 1)]); (1, [(arr, VArr [2] [3; 4]%Z)])] [] None). eexists. eexists.
  split; [vm_compute; reflexivity|]. split; [reflexivity|]. split; [vm_compute; reflexivity|]. split; reflexivity.
Qed.
(** An object that refers to itself cannot be saved at any recursion depth, and loses its array. *)
Lemma cycle_loop : forall fuel fname limit c w, attrs_of w 0 = [(child, VSub 0)] ->
  exists w', save_specials fuel 0 fname None limit [] c w = (Err RuntimeErr, w') /\ attrs_of w' 0 = [(child, VSub 0)].
Proof.
  induction fuel as [|fuel IH]; intros fname limit c w H; cbn [save_specials]; [exists w; split; [reflexivity | exact H]|].
  rewrite H. change (detect limit [(child, VSub 0)]) with (@nil attr). cbn [app set_aside each_sub].
  assert (X : attrs_of (set_attrs w 0 [(child, VSub 0)]) 0 = [(child, VSub 0)]) by (unfold attrs_of, set_attrs, dget_or; cbn [w_heap]; rewrite dget_dset_same; reflexivity).
  match goal with |- context [save_specials fuel 0 ?f None limit [] c ?w0] => destruct (IH f limit c w0 X) as (w' & E & A); rewrite E end. exists w'. split; [reflexivity | exact A].
Qed.
Theorem cycle_refuted : exists w, at_ (w_heap w) 0 big = Some (VArr [2] [1; 2]%Z) /\
  forall fuel, exists w', save (S fuel) 0 (ToName (str "m")) None 1 [] w = (Err RuntimeErr, w') /\ at_ (w_heap w') 0 big = None.
Proof.
  exists (mkWorld [(0, [(big, VArr [2] [1; 2]%Z); (child, VSub 0)])] [] None). split; [reflexivity|]. intros fuel. cbn [save]. unfold smart_save. cbn [save_specials].
  change (attrs_of _ 0) with [(big, VArr [2] [1; 2]%Z); (child, VSub 0)]. change (detect 1 [(big, VArr [2] [1; 2]%Z); (child, VSub 0)]) with [big]. change ([big] ++ []) with [big].
  change (set_aside [big] [] [(big, VArr [2] [1; 2]%Z); (child, VSub 0)]) with ([(big, VArr [2] [1; 2]%Z)], [(child, VSub 0)]). cbv iota beta. cbn [each_sub].
  match goal with |- context [save_specials fuel 0 ?f None 1 [] ?c ?w0] => destruct (cycle_loop fuel f 1%Z c w0 eq_refl) as (w' & E & A); rewrite E end. exists w'. split; [reflexivity|]. rewrite at_attrs, A. reflexivity.
Qed.
(** An attribute named in [separately] that is no array is not stored at all. *)
Theorem separately_refuted : exists w w' h', save 9 0 (ToName (str "m")) (Some [big]) 1 [] w = (Ok tt, w') /\ at_ (w_heap w) 0 big = Some (VOther 7) /\
  load 9 (w_fs w') (str "m") false = Ok (h', 0) /\ at_ h' 0 big = Some VNone.
Proof. exists (mkWorld [(0, [(big, VOther 7)])] [] None). eexists. eexists. split; [vm_compute; reflexivity|]. split; [reflexivity|]. split; [vm_compute; reflexivity | reflexivity]. Qed.
(** A 0-d array comes back 1-d. *)
Theorem scalar_array_refuted : exists w w' h', save 9 0 (ToName (str "m")) (Some [big]) 1 [] w = (Ok tt, w') /\ at_ (w_heap w) 0 big = Some (VArr [] [5]%Z) /\
  load 9 (w_fs w') (str "m") false = Ok (h', 0) /\ at_ h' 0 big = Some (VArr [1] [5]%Z).
Proof. exists (mkWorld [(0, [(big, VArr [] [5]%Z)])] [] None). eexists. eexists. split; [vm_compute; reflexivity|]. split; [reflexivity|]. split; [vm_compute; reflexivity | reflexivity]. Qed.
(** The names that saving leaves on the live object make a later save through a file handle load the old arrays. *)
Theorem stale_refuted : exists w w1 w2 h', save 9 0 (ToName (str "m")) None 1 [] w = (Ok tt, w1) /\
  save 9 0 (ToHandle (str "m")) None 1 [] (setattr w1 0 big (VArr [2] [8; 9]%Z)) = (Ok tt, w2) /\
  load 9 (w_fs w2) (str "m") false = Ok (h', 0) /\ at_ h' 0 big = Some (VArr [2] [1; 2]%Z).
Proof. exists (mkWorld family [] None). eexists. eexists. eexists. split; [vm_compute; reflexivity|]. split; [vm_compute; reflexivity|]. split; [vm_compute; reflexivity | reflexivity]. Qed.

(** ** Examples *)
Definition all_kinds : heap := [(3, [(big, VArr [2; 2] [1; 2; 3; 4]%Z); (str "sp", VSparse (Some ([5; 6], [0; 2], [0; 1])%Z) 9); (str "x", VOther 4); (child, VSub 4); (str "tmp", VOther 5)]); (4, [(arr, VArr [3] [7; 8; 9]%Z); (str "tmp", VArr [1] [0]%Z)])].
Example save_ex : exists w', save 9 3 (ToName (str "m.gz")) None 2 [str "tmp"] (mkWorld all_kinds [] None) = (Ok tt, w') /\
  map fst (w_fs w') = [str "m.gz.child.arr.npz"; str "m.gz.big.npz"; str "m.gz.sp.sparse.npz"; str "m.gz.sp.npz"; str "m.gz"] /\
  at_ (w_heap w') 3 (str "tmp") = Some (VOther 5) /\ load 9 (w_fs w') (str "m.gz") true = Err OSErr /\
  exists h', load 9 (w_fs w') (str "m.gz") false = Ok (h', 3) /\ at_ h' 3 (str "sp") = Some (VSparse (Some ([5; 6], [0; 2], [0; 1])%Z) 9) /\ at_ h' 4 arr = Some (VArr [3] [7; 8; 9]%Z) /\
    at_ h' 3 (str "tmp") = Some VNone /\ at_ h' 4 (str "tmp") = Some VNone.
Proof. eexists. split; [vm_compute; reflexivity|]. split; [vm_compute; reflexivity|]. split; [vm_compute; reflexivity|]. split; [vm_compute; reflexivity|]. eexists. split; [vm_compute; reflexivity|]. repeat split. Qed.
Example roundtrip_ex : NoDup (visited 9 all_kinds None 2 [str "tmp"] 3) /\ visited 9 all_kinds None 2 [str "tmp"] 3 = [3; 4] /\ wf_heap all_kinds.
Proof.
  split; [vm_compute; repeat constructor; cbn; intuition discriminate|]. split; [vm_compute; reflexivity|].
  intros l A H. apply dget_In in H. destruct H as [H|[H|[]]]; injection H as _ <-; vm_compute; repeat constructor; cbn; intuition discriminate.
Qed.
(** A failure of the last write only, and of every write for an object without nested ones: nothing is lost. *)
Example failure_ex : exists w', save 9 0 (ToName (str "m")) None 1 [] (mkWorld family [] (Some 2)) = (Err OSErr, w') /\ at_ (w_heap w') 0 big = Some (VArr [2] [1; 2]%Z) /\ at_ (w_heap w') 1 arr = Some (VArr [2] [3; 4]%Z).
Proof. eexists. split; [vm_compute; reflexivity|]. split; reflexivity. Qed.
