(** Proofs about plain text corpora. *)
From Coq Require Import ZifyBool ZifyNat ZifyN Factorial.
From Verif Require Import Base Str W2vFormat_Model W2vFormat_Proofs LineCorpora_Proofs Porter_Model Text_Model Dictionary_Model Dictionary_Spec Dictionary_Proofs Dictionary_Proofs2 TextCorpus_Model TextCorpus_Spec.
Local Open Scope nat_scope.

(** ** Samples *)
Lemma loop_mask : forall {D O} (get : D -> O) draw len stream i n, (Z.of_nat i <= len)%Z ->
  exists mask, length mask = Nat.min (length stream) (Z.to_nat (len - Z.of_nat i)) /\
    sample_loop get draw len i n stream = (map get (pick mask stream), (n - Z.of_nat (marked mask))%Z).
Proof.
  intros D O get draw len stream. induction stream as [|d rest IH]; intros i n Hi.
  - exists []. split; [reflexivity|]. cbn. f_equal. lia.
  - cbn [sample_loop]. destruct (Z.of_nat i =? len)%Z eqn:Ei.
    + exists []. split; [cbn [length]; lia|]. cbn. f_equal. lia.
    + destruct (draw i <=? n)%Z.
      * destruct (IH (S i) (n - 1)%Z ltac:(lia)) as (mask & L & E).
        exists (true :: mask). split; [cbn [length]; lia|]. rewrite E. cbn [pick map fst snd]. unfold marked. cbn [count_occ]. f_equal. destruct (Bool.bool_dec true true); [|congruence]. lia.
      * destruct (IH (S i) n ltac:(lia)) as (mask & L & E).
        exists (false :: mask). split; [cbn [length]; lia|]. rewrite E. cbn [pick]. unfold marked. cbn [count_occ]. destruct (Bool.bool_dec false true); [congruence|]. reflexivity.
Qed.
(** No more are left to choose than documents remain. *)
Lemma loop_left : forall {D O} (get : D -> O) draw len stream i n, legal len draw -> (0 <= n <= len - Z.of_nat i)%Z -> (len - Z.of_nat i <= Z.of_nat (length stream))%Z ->
  snd (sample_loop get draw len i n stream) = 0%Z.
Proof.
  intros D O get draw len stream. induction stream as [|d rest IH]; intros i n L N G.
  - cbn in *. lia.
  - cbn [sample_loop length] in *. destruct (Z.of_nat i =? len)%Z eqn:Ei; [cbn; lia|].
    assert (Hi : (Z.of_nat i < len)%Z) by lia. specialize (L i Hi) as Li.
    destruct (draw i <=? n)%Z eqn:Ed.
    + cbn [snd]. apply IH; auto; lia.
    + apply IH; auto; lia.
Qed.
Lemma loop_nonneg : forall {D O} (get : D -> O) draw len stream i n, legal len draw -> (Z.of_nat i <= len)%Z -> (0 <= n)%Z -> (0 <= snd (sample_loop get draw len i n stream))%Z.
Proof.
  intros D O get draw len stream. induction stream as [|d rest IH]; intros i n L Hi N; [exact N|].
  cbn [sample_loop]. destruct (Z.of_nat i =? len)%Z eqn:Ei; [exact N|].
  assert (Li : (Z.of_nat i < len)%Z) by lia. specialize (L i Li) as L1.
  destruct (draw i <=? n)%Z eqn:Ed; cbn [snd]; apply IH; auto; lia.
Qed.
(** Always the largest number drawn: a document is chosen only if all the rest is needed. *)
Lemma loop_largest : forall {D O} (get : D -> O) len stream i n, (0 < n)%Z -> (n + Z.of_nat (length stream) <= len - Z.of_nat i)%Z ->
  snd (sample_loop get (fun i => len - Z.of_nat i)%Z len i n stream) = n.
Proof.
  intros D O get len stream. induction stream as [|d rest IH]; intros i n N G; [reflexivity|].
  cbn [sample_loop length] in *. replace (Z.of_nat i =? len)%Z with false by lia. replace (len - Z.of_nat i <=? n)%Z with false by lia. apply IH; lia.
Qed.

Lemma pick_inj : forall {A} (l : list A) m m', NoDup l -> length m = length l -> length m' = length l -> pick m l = pick m' l -> m = m'.
Proof.
  intros A l. induction l as [|x l IH]; intros m m' ND L L' E.
  - destruct m, m'; cbn in *; congruence || lia.
  - destruct m as [|b m], m' as [|b' m']; cbn in L, L'; try lia. inversion ND as [|? ? NI ND']; subst.
    assert (IN : forall m, In x (pick m l) -> False).
    { intros k H. apply NI. clear - H. revert k H. induction l as [|y l IH]; intros [|[] k] H; cbn in H; try contradiction.
      - destruct H as [->|H]; [left; reflexivity | right; eapply IH; eauto].
      - right. eapply IH; eauto. }
    destruct b, b'; cbn in E.
    + f_equal. inversion E. apply IH; auto; lia.
    + exfalso. apply (IN m'). rewrite <- E. left. reflexivity.
    + exfalso. apply (IN m). rewrite E. left. reflexivity.
    + f_equal. apply IH; auto; lia.
Qed.
Lemma pick_length : forall {A} (l : list A) m, length m = length l -> length (pick m l) = marked m.
Proof.
  intros A l. induction l as [|x l IH]; intros [|b m] L; cbn in L; try lia; [reflexivity|].
  destruct b; cbn [pick length]; unfold marked; cbn [count_occ].
  - destruct (Bool.bool_dec true true); [|congruence]. fold (marked m). rewrite IH by lia. reflexivity.
  - destruct (Bool.bool_dec false true); [congruence|]. apply IH. lia.
Qed.

Lemma all_draws_spec : forall L ds, In ds (all_draws L) <-> length ds = L /\ forall i, i < L -> 1 <= nth i ds 0 <= L - i.
Proof.
  induction L as [|L IH]; intros ds.
  - cbn. split.
    + intros [<-|[]]. split; [reflexivity | lia].
    + intros [H _]. destruct ds; [auto | cbn in H; lia].
  - cbn [all_draws]. rewrite in_flat_map. split.
    + intros (d & Hd & H). apply in_map_iff in H. destruct H as (r & <- & Hr). apply IH in Hr. destruct Hr as [Lr Hr]. apply in_seq in Hd. split; [cbn; lia|].
      intros [|i] Hi; cbn [nth]; [lia|]. specialize (Hr i ltac:(lia)). lia.
    + intros [Ld H]. destruct ds as [|d r]; [cbn in Ld; lia|]. exists d. split; [apply in_seq; specialize (H 0 ltac:(lia)); cbn in H; lia|].
      apply in_map. apply IH. split; [cbn in Ld; lia|]. intros i Hi. specialize (H (S i) ltac:(lia)). cbn [nth] in H. lia.
Qed.
Lemma length_flat_const : forall {A B} (f : A -> list B) k l, (forall x, In x l -> length (f x) = k) -> length (flat_map f l) = length l * k.
Proof.
  intros A B f k l. induction l as [|x l IH]; intros H; [reflexivity|]. cbn [flat_map length]. rewrite app_length, IH, (H x (or_introl eq_refl)); [lia|]. intros y Hy. apply H. right. exact Hy.
Qed.
Lemma all_draws_count : forall L, length (all_draws L) = fact L.
Proof.
  induction L as [|L IH]; [reflexivity|]. cbn [all_draws]. rewrite (length_flat_const _ (fact L)); [rewrite seq_length; reflexivity|].
  intros x _. rewrite map_length. exact IH.
Qed.
Lemma NoDup_app_disj : forall {A} (l l' : list A), NoDup l -> NoDup l' -> (forall x, In x l -> In x l' -> False) -> NoDup (l ++ l').
Proof.
  intros A l l' N N' D. induction N as [|x l NI N IH]; [exact N'|]. cbn. constructor.
  - rewrite in_app_iff. intros [H|H]; [contradiction|]. eapply D; [left; reflexivity | exact H].
  - apply IH. intros y Hy. apply D. right. exact Hy.
Qed.
Lemma all_draws_nodup : forall L, NoDup (all_draws L).
Proof.
  induction L as [|L IH]; [constructor; [intros [] | constructor]|]. cbn [all_draws]. generalize (seq_NoDup (S L) 1). generalize (seq 1 (S L)). intros l N.
  induction N as [|d l NI N IHl]; [constructor|]. cbn [flat_map]. apply NoDup_app_disj; auto.
  - apply FinFun.Injective_map_NoDup; [intros a b H; congruence | exact IH].
  - intros x H1 H2. apply in_map_iff in H1. destruct H1 as (r & <- & _). apply in_flat_map in H2. destruct H2 as (d' & Hd & H2). apply in_map_iff in H2. destruct H2 as (r' & E & _). congruence.
Qed.

(** the mask that the draws [ds] lead to *)
Fixpoint mask_of (n : nat) (ds : list nat) : list bool :=
  match ds with [] => [] | d :: r => if d <=? n then true :: mask_of (n - 1) r else false :: mask_of n r end.
Lemma mask_of_length : forall ds n, length (mask_of n ds) = length ds.
Proof. induction ds as [|d r IH]; intros n; [reflexivity|]. cbn. destruct (d <=? n); cbn; rewrite IH; reflexivity. Qed.
Lemma loop_mask_of : forall {D O} (get : D -> O) ds stream pre n, length stream = length ds -> Forall (fun d => 1 <= d) ds ->
  fst (sample_loop get (fun i => Z.of_nat (nth i (pre ++ ds) 0)) (Z.of_nat (length pre + length ds)) (length pre) (Z.of_nat n) stream) = map get (pick (mask_of n ds) stream).
Proof.
  intros D O get ds. induction ds as [|d r IH]; intros stream pre n L F.
  - destruct stream; [reflexivity | cbn in L; lia].
  - destruct stream as [|x rest]; [cbn in L; lia|]. inversion F as [|? ? Fd Fr]; subst. cbn [sample_loop length mask_of] in *.
    replace (Z.of_nat (length pre) =? Z.of_nat (length pre + S (length r)))%Z with false by lia.
    replace (nth (length pre) (pre ++ d :: r) 0) with d by (rewrite app_nth2, Nat.sub_diag by lia; reflexivity).
    specialize (IH rest (pre ++ [d])). rewrite app_length in IH. cbn [length] in IH. rewrite <- app_assoc in IH. cbn [app] in IH.
    replace (length pre + 1 + length r) with (length pre + S (length r)) in IH by lia. replace (length pre + 1) with (S (length pre)) in IH by lia.
    destruct (d <=? n) eqn:E.
    + replace (Z.of_nat d <=? Z.of_nat n)%Z with true by lia. cbn [fst pick map]. f_equal. replace (Z.of_nat n - 1)%Z with (Z.of_nat (n - 1)) by lia. apply IH; [lia | exact Fr].
    + replace (Z.of_nat d <=? Z.of_nat n)%Z with false by lia. cbn [pick]. apply IH; [lia | exact Fr].
Qed.
Definition hits (L n : nat) (m : list bool) : nat := length (filter (fun ds => eqb (mask_of n ds) m) (all_draws L)).
Lemma filter_length_flat : forall {A B} (p : B -> bool) (f : A -> list B) l, length (filter p (flat_map f l)) = list_sum_nat (map (fun x => length (filter p (f x))) l).
Proof. intros A B p f l. induction l as [|x l IH]; [reflexivity|]. cbn. rewrite filter_app, app_length, IH. reflexivity. Qed.
Lemma filter_length_map : forall {A B} (p : B -> bool) (f : A -> B) l, length (filter p (map f l)) = length (filter (fun x => p (f x)) l).
Proof. intros A B p f l. induction l as [|x l IH]; [reflexivity|]. cbn. destruct (p (f x)); cbn; rewrite IH; reflexivity. Qed.
Lemma sum_if : forall (p : nat -> bool) k l, list_sum_nat (map (fun d => if p d then k else 0) l) = length (filter p l) * k.
Proof. intros p k l. induction l as [|x l IH]; [reflexivity|]. cbn [map filter]. unfold list_sum_nat at 1; cbn [fold_right]; fold (list_sum_nat (map (fun d => if p d then k else 0) l)). rewrite IH. destruct (p x); cbn [length]; lia. Qed.
Lemma count_le : forall n a L, length (filter (fun d => d <=? n) (seq a L)) = Nat.min L (S n - a).
Proof.
  intros n a L. revert a. induction L as [|L IH]; intros a; [reflexivity|]. cbn [seq filter]. destruct (a <=? n) eqn:E; cbn [length]; rewrite IH; lia.
Qed.
Lemma count_gt : forall n a L, length (filter (fun d => negb (d <=? n)) (seq a L)) = L - Nat.min L (S n - a).
Proof.
  intros n a L. revert a. induction L as [|L IH]; intros a; [reflexivity|]. cbn [seq filter]. destruct (a <=? n) eqn:E; cbn [length negb]; rewrite IH; lia.
Qed.
Lemma filter_none : forall {A} (p : A -> bool) l, (forall x, p x = false) -> filter p l = [].
Proof. intros A p l H. induction l as [|x l IH]; [reflexivity|]. cbn. rewrite H. exact IH. Qed.
Lemma filter_ext' : forall {A} (p q : A -> bool) l, (forall x, p x = q x) -> filter p l = filter q l.
Proof. intros A p q l H. induction l as [|x l IH]; [reflexivity|]. cbn. rewrite H, IH. reflexivity. Qed.
Lemma eqb_cons_bool : forall (b b' : bool) m m', eqb (b :: m) (b' :: m') = (Bool.eqb b b' && eqb m m').
Proof.
  intros b b' m m'. unfold eqb. destruct (eq_dec (b :: m) (b' :: m')) as [E|E], (eq_dec m m') as [E'|E']; destruct b, b'; cbn; congruence.
Qed.
Lemma hits_exact : forall m n, marked m = n -> hits (length m) n m = fact n * fact (length m - n).
Proof.
  induction m as [|b m IH]; intros n M.
  - cbn in M. subst n. reflexivity.
  - assert (LE : forall m, marked m <= length m). { intros k. unfold marked. induction k as [|x k IHk]; [reflexivity|]. cbn. destruct (Bool.bool_dec x true); lia. }
    unfold hits. cbn [length all_draws]. rewrite filter_length_flat.
    rewrite (map_ext _ (fun d => if Bool.eqb (d <=? n) b then hits (length m) (if b then n - 1 else n) m else 0)).
    2: { intros d. rewrite filter_length_map. cbn [mask_of]. destruct (d <=? n), b; cbn [Bool.eqb].
         - unfold hits. f_equal. apply filter_ext'. intros ds. apply eqb_cons_bool.
         - rewrite filter_none; [reflexivity|]. intros ds. apply eqb_cons_bool.
         - rewrite filter_none; [reflexivity|]. intros ds. apply eqb_cons_bool.
         - unfold hits. f_equal. apply filter_ext'. intros ds. apply eqb_cons_bool. }
    rewrite (sum_if (fun d => Bool.eqb (d <=? n) b)). specialize (LE m) as LEm. destruct b.
    + unfold marked in M. cbn [count_occ] in M. destruct (Bool.bool_dec true true); [|congruence]. fold (marked m) in M.
      rewrite (IH (n - 1)) by lia. rewrite (filter_ext' _ (fun d => d <=? n)) by (intros d; destruct (d <=? n); reflexivity). rewrite count_le.
      destruct n as [|n]; [lia|]. replace (Nat.min (S (length m)) (S (S n) - 1)) with (S n) by lia. replace (S n - 1) with n by lia. replace (S (length m) - S n) with (length m - n) by lia. cbn [fact]. lia.
    + unfold marked in M. cbn [count_occ] in M. destruct (Bool.bool_dec false true); [congruence|]. fold (marked m) in M.
      rewrite (IH n M). rewrite (filter_ext' _ (fun d => negb (d <=? n))) by (intros d; destruct (d <=? n); reflexivity). rewrite count_gt.
      replace (S (length m) - Nat.min (S (length m)) (S n - 1)) with (S (length m - n)) by lia. replace (S (length m) - n) with (S (length m - n)) by lia. cbn [fact]. lia.
Qed.

(** ** Preprocessing *)
Lemma char_steps_nth : forall {C} (chars : list (C -> C)) text k c, k < length chars -> nth k (char_steps chars text) c = apply_all (firstn (S k) chars) text.
Proof.
  intros C chars. induction chars as [|f fs IH]; intros text k c L; [cbn in L; lia|]. cbn [char_steps]. destruct k as [|k]; [reflexivity|]. cbn [nth length] in *. rewrite IH by lia. reflexivity.
Qed.

(** ** Lower case *)
Lemma utf8_lower : forall s, map bytes_lower (utf8 s) = utf8 (map bytes_lower s).
Proof.
  induction s as [|c s IH]; [reflexivity|]. change (utf8 (c :: s)) with (utf8_char c ++ utf8 s). cbn [map]. change (utf8 (bytes_lower c :: map bytes_lower s)) with (utf8_char (bytes_lower c) ++ utf8 (map bytes_lower s)). rewrite map_app, IH. f_equal.
  destruct (c <? 128)%N eqn:E.
  - replace (utf8_char c) with [c] by (unfold utf8_char; rewrite E; reflexivity). assert (B : (bytes_lower c <? 128)%N = true) by (unfold bytes_lower; destruct ((65 <=? c) && (c <=? 90))%N eqn:X; lia). unfold utf8_char. rewrite B. reflexivity.
  - replace (bytes_lower c) with c by (unfold bytes_lower; replace ((65 <=? c) && (c <=? 90))%N with false by lia; reflexivity).
    rewrite <- (map_id (utf8_char c)) at 2. apply map_ext_in. intros b Hb. unfold bytes_lower. destruct (b <? 128)%N eqn:Eb.
    + apply utf8_char_low in Hb; [|lia]. subst b. lia.
    + replace ((65 <=? b) && (b <=? 90))%N with false by lia. reflexivity.
Qed.

(** ** The bag of words *)
Lemma filter_length_le' : forall {A} (p : A -> bool) l, length (filter p l) <= length l.
Proof. intros A p l. induction l as [|x l IH]; [reflexivity|]. cbn. destruct (p x); cbn; lia. Qed.
Lemma upd_len : forall d doc, d_inv d -> d_len (fst (d_doc2bow d doc true false)) <= d_len d + length doc.
Proof.
  intros d doc I0. rewrite doc2bow_fst. unfold d_len. rewrite upd_t2i. rewrite d_assign_missing_eq by apply NoDup_count_words.
  rewrite app_length, combine_length, map_length. pose proof (Permutation_length (d_missing_perm (d_token2id d) (count_words doc))) as P.
  assert (Q : length (d_missing (d_token2id d) (count_words doc)) <= length doc).
  { rewrite <- P. etransitivity; [apply filter_length_le'|]. rewrite length_count_words. apply NoDup_incl_length; [apply NoDup_nodup|]. intros x Hx. apply nodup_In in Hx. exact Hx. }
  rewrite map_length, seq_length || rewrite seq_length. lia.
Qed.
Lemma add_known : forall docs k d p, d_inv d -> (Z.of_nat (d_len d + length (concat docs)) <= p)%Z ->
  exists d', d_add_documents_from k d docs (Some p) = Ok d' /\ d_inv d' /\
    forall t, In t (dkeys (d_token2id d)) \/ In t (concat docs) -> In t (dkeys (d_token2id d')).
Proof.
  induction docs as [|doc docs IH]; intros k d p I0 L; cbn [d_add_documents_from].
  - exists d. split; [reflexivity|]. split; [exact I0|]. intros t [H|[]]; exact H.
  - cbn [concat] in L. rewrite app_length in L. replace (p <? Z.of_nat (d_len d))%Z with false by lia.
    assert (E : (if (k mod 10000 =? 0)%N then Ok d else Ok d) = Ok d) by (destruct (k mod 10000 =? 0)%N; reflexivity). rewrite E. cbn [rbind].
    pose proof (upd_len d doc I0) as U. pose proof (upd_inv d doc I0) as I1. pose proof (upd_t2i d doc) as T. unfold upd in I1, T.
    destruct (IH (k + 1)%N (fst (d_doc2bow d doc true false)) p I1 ltac:(lia)) as (d' & E' & I' & K). exists d'. split; [exact E'|]. split; [exact I'|].
    intros t H. apply K. rewrite T, assign_In. cbn [concat] in H. rewrite in_app_iff in H. tauto.
Qed.
Lemma bow_sum : forall d doc, d_inv d -> (forall t, In t doc -> In t (dkeys (d_token2id d))) -> list_sum_nat (map snd (bow d doc)) = length doc.
Proof.
  intros d doc I0 K. unfold bow, d_doc2bow. cbn [orb fst snd]. rewrite d_bow_eq by (apply inv_inj || apply NoDup_count_words; auto).
  rewrite (list_sum_nat_perm _ (map snd (bow_list (d_token2id d) (count_words doc)))) by (apply Permutation_map, Permutation_sym, Permutation_isort || apply Permutation_map, Permutation_isort).
  rewrite <- sum_count_words. f_equal. assert (A : forall w, In w (dkeys (count_words doc)) -> In w (dkeys (d_token2id d))) by (intros w H; apply K, In_count_words; exact H).
  revert A. generalize (count_words doc) as c. induction c as [|[w f] c IH]; intros A; [reflexivity|]. cbn [bow_list flat_map fst]. destruct (dget (d_token2id d) w) eqn:E.
  - cbn [app map snd dvals]. f_equal. apply IH. intros x Hx. apply A. right. exact Hx.
  - apply dget_None in E. exfalso. apply E, A. left. reflexivity.
Qed.

(** ** Directories *)
Fixpoint entry_all (P : entry -> Prop) (HF : forall t, P (File t)) (HD : forall listed link es, (forall name e, In (name, e) es -> P e) -> P (Dir listed link es)) (e : entry) : P e :=
  match e with
  | File t => HF t
  | Dir listed link es =>
    HD listed link es ((fix go (es : list (pystr * entry)) : forall name e, In (name, e) es -> P e :=
      match es with
      | [] => fun _ _ H => match H with end
      | ne :: es' => fun name e H =>
        match H with
        | or_introl E => eq_ind ne (fun q => P (snd q)) (entry_all P HF HD (snd ne)) (name, e) E
        | or_intror H' => go es' name e H'
        end
      end) es)
  end.
Definition walk_below (depth : nat) (path : list pystr) (es : list (pystr * entry)) : list (nat * list pystr * list (pystr * pystr)) :=
  flat_map (fun ne => match snd ne with Dir _ false _ => walk (S depth) (path ++ [fst ne]) (snd ne) | _ => [] end) es.
Lemma walk_dir : forall depth path link es, walk depth path (Dir true link es) = (depth, path, nondirs es) :: walk_below depth path es.
Proof.
  intros depth path link es. cbn [walk]. f_equal. unfold walk_below. induction es as [|[name e] es IH]; [reflexivity|]. cbn [flat_map fst snd]. rewrite IH. reflexivity.
Qed.
Lemma nondirs_In : forall es name t, In (name, t) (nondirs es) <-> In (name, File t) es.
Proof.
  intros es name t. unfold nondirs. rewrite in_flat_map. split.
  - intros ([n e] & H & X). cbn in X. destruct e as [t'|]; [|contradiction]. destruct X as [X|[]]. inversion X; subst. exact H.
  - intros H. exists (name, File t). split; [exact H|]. left. reflexivity.
Qed.
Definition found (depth : nat) (path : list pystr) (top : entry) (d : nat) (p : list pystr) (t : pystr) : Prop :=
  exists dir name files, In (d, dir, files) (walk depth path top) /\ In (name, t) files /\ p = dir ++ [name].
Lemma walk_files : forall top depth path d p t, found depth path top d p t <->
  exists q, p = path ++ q /\ file_at top q t /\ d + 1 = depth + length q.
Proof.
  intros top. induction top as [t0|listed link es IH] using entry_all; intros depth path d p t.
  - split; [intros (? & ? & ? & [] & _) | intros (q & _ & F & _); inversion F].
  - destruct listed; [|split; [intros (? & ? & ? & [] & _) | intros (q & _ & F & _); inversion F]].
    unfold found. rewrite walk_dir. split.
    + intros (dir & name & files & [E|H] & N & P0).
      * inversion E; subst. exists [name]. split; [reflexivity|]. split; [constructor; apply nondirs_In; exact N | cbn; lia].
      * unfold walk_below in H. apply in_flat_map in H. destruct H as ([n e] & He & H). cbn [fst snd] in H. destruct e as [|l2 [] es2]; try contradiction.
        destruct (proj1 (IH n _ He (S depth) (path ++ [n]) d p t)) as (q & Ep & F & L); [exists dir, name, files; auto|].
        exists (n :: q). split; [rewrite Ep, <- app_assoc; reflexivity|]. split; [eapply below; eauto | cbn [length]; lia].
    + intros (q & Ep & F & L). inversion F as [? ? name ? Hn|? ? name l2 es2 q' ? He F']; subst.
      * exists path, name, (nondirs es). split; [left; f_equal; f_equal; cbn in L; lia|]. split; [apply nondirs_In; exact Hn | reflexivity].
      * destruct (proj2 (IH name _ He (S depth) (path ++ [name]) d (path ++ name :: q') t)) as (dir & nm & files & H & N & P0).
        { exists q'. split; [rewrite <- app_assoc; reflexivity|]. split; [exact F' | cbn [length] in L; lia]. }
        exists dir, nm, files. split; [|auto]. right. unfold walk_below. apply in_flat_map. exists (name, Dir l2 false es2). split; [exact He | exact H].
Qed.
(** every path of the walk extends the given one *)
Lemma walk_path : forall top depth path d dir files, In (d, dir, files) (walk depth path top) -> exists q, dir = path ++ q.
Proof.
  intros top. induction top as [t0|listed link es IH] using entry_all; intros depth path d dir files H; [destruct H|].
  destruct listed; [|destruct H]. rewrite walk_dir in H. destruct H as [E|H].
  - inversion E; subst. exists []. rewrite app_nil_r. reflexivity.
  - unfold walk_below in H. apply in_flat_map in H. destruct H as ([n e] & He & H). cbn [fst snd] in H. destruct e as [|l2 [] es2]; try contradiction.
    apply (IH n _ He) in H. destruct H as (q & ->). exists (n :: q). rewrite <- app_assoc. reflexivity.
Qed.
Lemma walk_dirs_nodup : forall top depth path, tree top -> NoDup (map (fun x => snd (fst x)) (walk depth path top)).
Proof.
  intros top. induction top as [t0|listed link es IH] using entry_all; intros depth path T; [constructor|].
  destruct listed; [|constructor]. rewrite walk_dir. inversion T as [|? ? ? ND TE]; subst. cbn [map fst snd]. constructor.
  - intros H. apply in_map_iff in H. destruct H as ([[d dir] files] & E & H). cbn in E. subst dir. unfold walk_below in H. apply in_flat_map in H. destruct H as ([n e] & He & H). cbn [fst snd] in H.
    destruct e as [|l2 [] es2]; try contradiction. apply walk_path in H. destruct H as (q & E). rewrite <- app_assoc in E. rewrite <- (app_nil_r path) in E at 1. apply app_inv_head in E. discriminate.
  - unfold walk_below. clear T. induction es as [|[n e] es IHes]; [constructor|]. cbn [flat_map fst snd]. rewrite map_app. inversion ND as [|? ? NI ND']; subst. apply NoDup_app_disj.
    + destruct e as [|l2 [] es2]; try constructor. apply (IH n); [left; reflexivity|]. eapply TE. left. reflexivity.
    + apply IHes; auto; [intros nm x Hx; apply (IH nm); right; exact Hx | intros nm x Hx; eapply TE; right; exact Hx].
    + intros dir H1 H2. apply in_map_iff in H1. destruct H1 as ([[d1 dir1] f1] & E1 & H1). cbn in E1. subst dir1. apply in_map_iff in H2. destruct H2 as ([[d2 dir2] f2] & E2 & H2). cbn in E2. subst dir2.
      destruct e as [|l2 [] es2]; try contradiction. apply walk_path in H1. destruct H1 as (q1 & ->). apply in_flat_map in H2. destruct H2 as ([n2 e2] & He2 & H2). cbn [fst snd] in H2. destruct e2 as [|l3 [] es3]; try contradiction.
      apply walk_path in H2. destruct H2 as (q2 & E). rewrite <- !app_assoc in E. apply app_inv_head in E. cbn in E. inversion E; subst. apply NI. apply in_map_iff. exists (n2, Dir l3 false es3). auto.
Qed.
Lemma walk_files_nodup : forall top depth path, tree top -> forall d dir files, In (d, dir, files) (walk depth path top) -> NoDup (map fst files).
Proof.
  intros top. induction top as [t0|listed link es IH] using entry_all; intros depth path T d dir files H; [destruct H|].
  destruct listed; [|destruct H]. rewrite walk_dir in H. inversion T as [|? ? ? ND TE]; subst. destruct H as [E|H].
  - inversion E; subst. clear - ND. unfold nondirs. induction es as [|[n e] es IHes]; [constructor|]. cbn [flat_map snd fst]. inversion ND as [|? ? NI ND']; subst. destruct e as [t|]; [|apply IHes; exact ND'].
    cbn [app map fst]. constructor; [|apply IHes; exact ND']. intros H. apply in_map_iff in H. destruct H as ([n' t'] & E' & H). cbn in E'. subst n'. apply (nondirs_In es) in H. apply NI. apply in_map_iff. exists (n, File t'). auto.
  - unfold walk_below in H. apply in_flat_map in H. destruct H as ([n e] & He & H). cbn [fst snd] in H. destruct e as [|l2 [] es2]; try contradiction. eapply (IH n); eauto.
Qed.
Lemma name_ok_admitted : forall s name, name_ok s name = true <-> admitted s name.
Proof.
  intros s name. unfold name_ok, admitted. destruct (pattern s) as [p|], (exclude_pattern s) as [q|]; rewrite ?andb_true_iff, ?negb_true_iff; split; try (intros [A B]); split; try (intros ? [= <-]); try discriminate; auto.
Qed.
