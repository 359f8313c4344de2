(** Proofs about the word2vec formats. *)

From Verif Require Import Base Str Matutils_Model Formats_Base KeyedVectors_Model KeyedVectors_Proofs W2vFormat_Model W2vFormat_Spec.
From Coq Require Import ZifyBool ZifyNat ZifyN.
Local Open Scope nat_scope.

(** ** UTF-8 *)

Ltac divlia := zify; Z.to_euclidean_division_equations; lia.

Lemma utf8_read_char : forall c r, valid_char c = true -> utf8_read (utf8_char c ++ r) = c :: utf8_read r.
Proof.
  intros c r V. unfold valid_char in V. unfold utf8_char.
  destruct (c <? 128)%N eqn:E1; [cbn [app utf8_read]; rewrite E1; reflexivity|].
  destruct (c <? 2048)%N eqn:E2.
  { cbn [app utf8_read]. replace (192 + c / 64 <? 128)%N with false by divlia. replace (192 + c / 64 <? 224)%N with true by divlia.
    f_equal. divlia. }
  destruct (c <? 65536)%N eqn:E3.
  { cbn [app utf8_read]. replace (224 + c / 4096 <? 128)%N with false by divlia. replace (224 + c / 4096 <? 224)%N with false by divlia.
    replace (224 + c / 4096 <? 240)%N with true by divlia. f_equal. divlia. }
  cbn [app utf8_read]. replace (240 + c / 262144 <? 128)%N with false by divlia. replace (240 + c / 262144 <? 224)%N with false by divlia.
  replace (240 + c / 262144 <? 240)%N with false by divlia. f_equal. divlia.
Qed.

Lemma utf8_decode_ok : forall w, Forall (fun c => valid_char c = true) w -> utf8_decode (utf8 w) = Some w.
Proof.
  intros w V. unfold utf8_decode.
  assert (E : utf8_read (utf8 w) = w).
  { induction V as [|c w Hc V IH]; [reflexivity|]. cbn [utf8 flat_map]. rewrite utf8_read_char by exact Hc. unfold utf8 in IH. rewrite IH. reflexivity. }
  rewrite E, eqb_refl. replace (forallb valid_char w) with true; [reflexivity|]. symmetry. apply forallb_forall. rewrite Forall_forall in V. exact V.
Qed.

Lemma utf8_char_low : forall b c, (b < 128)%N -> In b (utf8_char c) -> b = c.
Proof.
  intros b c L. unfold utf8_char. destruct (c <? 128)%N eqn:E1; [intros [H|[]]; congruence|].
  destruct (c <? 2048)%N; [|destruct (c <? 65536)%N]; cbn [In]; intros H; decompose [or] H; try contradiction; exfalso; divlia.
Qed.
Lemma utf8_low : forall b w, (b < 128)%N -> In b (utf8 w) -> In b w.
Proof.
  intros b w L H. apply in_flat_map in H. destruct H as (c & Hc & Hb). apply utf8_char_low in Hb; [subst; exact Hc | exact L].
Qed.
Lemma utf8_app : forall a b, utf8 (a ++ b) = utf8 a ++ utf8 b.
Proof. intros. apply flat_map_app. Qed.
Lemma utf8_ascii : forall w, Forall (fun c => c < 128)%N w -> utf8 w = w.
Proof.
  intros w H. induction H as [|c w Hc H IH]; [reflexivity|]. cbn [utf8 flat_map]. unfold utf8 in IH. rewrite IH. unfold utf8_char.
  replace (c <? 128)%N with true by lia. reflexivity.
Qed.

(** ** Filling the slots *)

Section P.
Context {A R : Type}.
Variable F : sfmt A.
Notation vec := (list A).
Notation kvs := (kv (list A) R).
Notation entry := (pystr * list A)%type.

Record loaded (d n : nat) (cof : nat -> pystr -> Z) (es : list entry) (m : kvs) : Prop := {
  L_le : length es <= n;
  L_nodup : NoDup (map fst es);
  L_keys : index_to_key m = map (fun e => Some (KStr (fst e))) es ++ repeat None (n - length es);
  L_next : next_index m = length es;
  L_vecs : vectors m = map snd es ++ repeat (repeat (s_zero F) d) (n - length es);
  L_dict : forall w i, dget (key_to_index m) (KStr w) = Some i <-> nth_error (map fst es) i = Some w;
  L_counts : match es with
             | [] => counts m = None
             | _ => exists c, counts m = Some c /\ length c = n /\
                      forall i w, nth_error (map fst es) i = Some w -> nth_error c i = Some (cof i w)
             end }.

Lemma loaded_new : forall d n cof, loaded d n cof [] (kv_new (repeat (s_zero F) d) n).
Proof.
  intros. constructor; cbn; try (rewrite Nat.sub_0_r); auto; try lia; try constructor.
  - discriminate.
  - intros H. destruct i; discriminate.
Qed.

Lemma loaded_holds : forall d n cof es m, loaded d n cof es m -> holds F d m es cof (n - length es).
Proof.
  intros d n cof es m L. destruct L. unfold holds. split; [assumption|]. split; [assumption|].
  assert (G : forall w i, get_index m (KStr w) = Some i <-> nth_error (map fst es) i = Some w).
  { intros w i. rewrite get_index_str. apply L_dict0. }
  split; [exact G|]. intros i w H. unfold get_count. rewrite (proj2 (G w i) H).
  destruct es as [|e es]; [destruct i; discriminate|]. destruct L_counts0 as (c & -> & _ & Hc). rewrite (Hc i w H). reflexivity.
Qed.

Lemma set_nth_app : forall {X} (l : list X) x y r, set_nth (l ++ y :: r) (length l) x = l ++ x :: r.
Proof. induction l as [|a l IH]; intros; cbn; [reflexivity|]. rewrite IH. reflexivity. Qed.

Lemma resize_id : forall c n, length c = n -> resize n c = c.
Proof. intros c n <-. unfold resize. rewrite Nat.sub_diag. cbn. rewrite app_nil_r. apply firstn_all. Qed.

Lemma add_word_new : forall d n cnts es m w v, loaded d n (count_in cnts n) es m -> length es < n -> length v = d ->
  ~ In w (map fst es) -> match cnts with None => True | Some cs => dget cs w <> None end ->
  exists m', add_word n d cnts m w v = Ok m' /\ loaded d n (count_in cnts n) (es ++ [(w, v)]) m'.
Proof.
  intros d n cnts es m w v L Ln Lv NI Hc. pose proof L as L0. destruct L.
  unfold add_word, has_index_for. rewrite get_index_str.
  destruct (dget (key_to_index m) (KStr w)) as [i|] eqn:Ed.
  { apply L_dict0, nth_error_In in Ed. contradiction. }
  unfold shape. rewrite Lv, Nat.eqb_refl. cbn [rbind].
  assert (En : n - length es = S (n - S (length es))) by lia.
  set (m1 := set_next (set_vectors (mkKv (map (fun e => Some (KStr (fst e))) es ++ Some (KStr w) :: repeat None (n - S (length es))) (length es)
              (dset (key_to_index m) (KStr w) (length es)) (vectors m) (norms m) (counts m))
              (map snd es ++ v :: repeat (repeat (s_zero F) d) (n - S (length es)))) (S (length es))).
  assert (Ea : add_vector m (KStr w) v = (Ok (length es), m1)).
  { unfold add_vector. rewrite L_next0, L_keys0, L_vecs0, En. cbn [repeat].
    rewrite nth_error_app2 by (rewrite map_length; lia). rewrite map_length, Nat.sub_diag. cbn [nth_error].
    rewrite app_length, map_length. cbn [length]. replace (length es <? length es + S (length (repeat (repeat (s_zero F) d) (n - S (length es))))) with true by lia.
    unfold m1. rewrite L_vecs0, En. cbn [repeat].
    pose proof (set_nth_app (map (fun e : entry => Some (KStr (fst e))) es) (Some (KStr w)) None (repeat None (n - S (length es)))) as X1.
    rewrite map_length in X1. rewrite X1.
    pose proof (set_nth_app (map snd es) v (repeat (s_zero F) d) (repeat (repeat (s_zero F) d) (n - S (length es)))) as X2.
    rewrite map_length in X2. rewrite X2. reflexivity. }
  rewrite Ea. cbn [rbind].
  assert (Ec : (let* c := match cnts with None => Ok (Z.of_nat n - Z.of_nat (length es))%Z | Some cs => of_option TypeError (dget cs w) end in
               set_count m1 (KStr w) c) = set_count m1 (KStr w) (count_in cnts n (length es) w)).
  { destruct cnts as [cs|]; [|reflexivity]. cbn [count_in]. destruct (dget cs w) as [c|] eqn:Edc; [reflexivity|].
    exfalso. apply Hc. reflexivity. }
  rewrite Ec. clear Ec Ea. unfold set_count.
  assert (Lk : kv_len m1 = n).
  { unfold kv_len, m1. cbn [index_to_key set_next set_vectors]. rewrite app_length, map_length. cbn [length]. rewrite repeat_length. lia. }
  rewrite Lk. rewrite get_index_str. cbn [key_to_index set_counts m1 set_next set_vectors]. rewrite dget_dset_same.
  cbn [counts set_counts option_map]. eexists. split; [reflexivity|].
  assert (Nth : forall i w', nth_error (map fst (es ++ [(w, v)])) i = Some w' <->
            nth_error (map fst es) i = Some w' \/ (i = length es /\ w' = w)).
  { intros i w'. rewrite map_app. cbn [map]. destruct (Nat.lt_ge_cases i (length es)) as [Hi|Hi].
    - rewrite nth_error_app1 by (rewrite map_length; exact Hi). split; [auto | intros [?|[? ?]]; [assumption | lia]].
    - rewrite nth_error_app2 by (rewrite map_length; exact Hi). rewrite map_length.
      assert (X : nth_error (map fst es) i = None) by (apply nth_error_None; rewrite map_length; exact Hi). rewrite X.
      destruct (i - length es) as [|j] eqn:Ei; cbn [nth_error fst].
      + split; [intros H; injection H as <-; right; split; [lia | reflexivity] | intros [?|[_ ->]]; [discriminate | reflexivity]].
      + split; [intros H; destruct j; discriminate | intros [?|[? _]]; [discriminate | lia]]. }
  constructor; cbn [index_to_key next_index vectors key_to_index counts set_counts set_next set_vectors m1].
  - rewrite app_length. cbn. lia.
  - rewrite map_app. cbn [map]. apply NoDup_app_one; assumption.
  - rewrite map_app, app_length. cbn [map length]. rewrite <- app_assoc. cbn [app]. replace (n - (length es + 1)) with (n - S (length es)) by lia. reflexivity.
  - rewrite app_length. cbn. lia.
  - rewrite map_app, app_length. cbn [map length]. rewrite <- app_assoc. cbn [app]. replace (n - (length es + 1)) with (n - S (length es)) by lia. reflexivity.
  - intros w' i. rewrite Nth. rewrite dget_dset. destruct (eq_dec (KStr w) (KStr w')) as [E|N].
    + injection E as <-. split.
      * intros H. injection H as <-. right; auto.
      * intros [H|[-> _]]; [apply nth_error_In in H; contradiction | reflexivity].
    + rewrite L_dict0. split; [auto | intros [H|[_ ->]]; [exact H | congruence]].
  - assert (Lr : forall c0, length (resize n c0) = n).
    { intros c0. unfold resize. rewrite app_length, firstn_length, repeat_length. lia. }
    destruct (es ++ [(w, v)]) as [|e0 es0] eqn:E0; [destruct es; discriminate|]. rewrite <- E0 in *. clear e0 es0 E0.
    eexists. split; [reflexivity|]. split; [rewrite set_nth_length; apply Lr|].
    intros i w' H. apply Nth in H. rewrite nth_error_set_nth, Lr.
    destruct H as [H|[-> ->]].
    + assert (Hi : i < length es) by (rewrite <- (map_length fst es); apply nth_error_Some; congruence).
      destruct (Nat.eq_dec i (length es)); [lia|].
      destruct es as [|e es]; [destruct i; discriminate|]. destruct L_counts0 as (c & -> & Lc & Hcc).
      rewrite resize_id by exact Lc. replace (i =? length (e :: es)) with false by lia. cbn [andb]. apply Hcc. exact H.
    + rewrite Nat.eqb_refl. replace (length es <? n) with true by lia. reflexivity.
Qed.

Lemma add_word_dup : forall d n cnts cof es m w v, loaded d n cof es m -> In w (map fst es) -> add_word n d cnts m w v = Ok m.
Proof.
  intros d n cnts cof es m w v L H. destruct L. unfold add_word, has_index_for. rewrite get_index_str.
  apply In_nth_error in H. destruct H as [i H]. apply L_dict0 in H. rewrite H. reflexivity.
Qed.

Lemma firsts_from_app : forall (es : list entry) seen e, firsts_from seen (es ++ [e]) =
  firsts_from seen es ++ (if memb (fst e) (map fst es ++ seen) then [] else [e]).
Proof.
  induction es as [|x es IH]; intros seen e; cbn [app firsts_from map].
  - destruct (memb (fst e) seen); reflexivity.
  - destruct (memb (fst x) seen) eqn:Mx.
    + rewrite IH. f_equal. apply memb_true in Mx. destruct (memb (fst e) (map fst es ++ seen)) eqn:M1; destruct (memb (fst e) (fst x :: map fst es ++ seen)) eqn:M2; try reflexivity; exfalso.
      * apply memb_true in M1. apply memb_false in M2. apply M2. right; exact M1.
      * apply memb_false in M1. apply memb_true in M2. destruct M2 as [M2|M2]; [apply M1; rewrite <- M2; apply in_or_app; auto | contradiction].
    + rewrite IH. cbn [app]. f_equal. f_equal.
      destruct (memb (fst e) (map fst es ++ fst x :: seen)) eqn:M1; destruct (memb (fst e) (fst x :: map fst es ++ seen)) eqn:M2; try reflexivity; exfalso.
      * apply memb_true in M1. apply memb_false in M2. apply M2. apply in_app_or in M1. destruct M1 as [M1|[M1|M1]]; [right; apply in_or_app; auto | left; exact M1 | right; apply in_or_app; auto].
      * apply memb_false in M1. apply memb_true in M2. apply M1. destruct M2 as [M2|M2]; [apply in_or_app; right; left; exact M2|].
        apply in_app_or in M2. destruct M2; apply in_or_app; [auto | right; right; assumption].
Qed.
Lemma firsts_from_words : forall (es : list entry) seen w, In w (map fst (firsts_from seen es)) <-> In w (map fst es) /\ ~ In w seen.
Proof.
  induction es as [|x es IH]; intros seen w; cbn [firsts_from map]; [cbn; tauto|].
  destruct (memb (fst x) seen) eqn:Mx.
  - apply memb_true in Mx. rewrite IH. cbn [In]. split; [tauto | intros [[<-|H] N]; [contradiction | tauto]].
  - apply memb_false in Mx. cbn [map In]. rewrite IH. cbn [In]. split.
    + intros [<-|[H N]]; [tauto | tauto].
    + intros [[<-|H] N]; [auto|]. destruct (eq_dec (fst x) w) as [E|E]; [auto | right; tauto].
Qed.
Lemma firsts_length : forall (es : list entry) seen, length (firsts_from seen es) <= length es.
Proof. induction es as [|x es IH]; intros seen; cbn; [lia|]. destruct (memb (fst x) seen); cbn; specialize (IH seen) as H1; specialize (IH (fst x :: seen)) as H2; lia. Qed.
Lemma firsts_incl : forall (es : list entry) seen e, In e (firsts_from seen es) -> In e es.
Proof. induction es as [|x es IH]; intros seen e; cbn; [tauto|]. destruct (memb (fst x) seen); cbn; intros H; [eauto | destruct H; eauto]. Qed.
Lemma firsts_nodup : forall (es : list entry) seen, NoDup (map fst es) -> (forall e, In e es -> ~ In (fst e) seen) -> firsts_from seen es = es.
Proof.
  induction es as [|x es IH]; intros seen N H; cbn; [reflexivity|]. inversion N; subst.
  destruct (memb (fst x) seen) eqn:Mx; [apply memb_true in Mx; exfalso; apply (H x); cbn; auto|]. f_equal. apply IH; [assumption|].
  intros e He [E|E]; [apply H2; rewrite E; apply in_map; exact He | apply (H e); cbn; auto].
Qed.

(** One more entry. *)
Lemma add_word_step : forall d n cnts es m w v, loaded d n (count_in cnts n) (firsts es) m -> length es < n -> length v = d ->
  match cnts with None => True | Some cs => dget cs w <> None end ->
  exists m', add_word n d cnts m w v = Ok m' /\ loaded d n (count_in cnts n) (firsts (es ++ [(w, v)])) m'.
Proof.
  intros d n cnts es m w v L Ln Lv Hc. unfold firsts. rewrite firsts_from_app. rewrite app_nil_r. cbn [fst].
  destruct (memb w (map fst es)) eqn:Mw.
  - apply memb_true in Mw. rewrite app_nil_r. exists m. split; [|exact L]. apply (add_word_dup _ _ _ _ (firsts es)) with (1 := L).
    apply firsts_from_words. auto.
  - apply memb_false in Mw. apply add_word_new; auto.
    + pose proof (firsts_length es []). unfold firsts. lia.
    + intros H. apply firsts_from_words in H. tauto.
Qed.

(** ** Text *)

Variable dom : A -> Prop.
Hypothesis FO : sfmt_ok F dom.

Lemma line_ok : forall w v, text_word w -> v <> [] -> Forall dom v -> line_to_vector F (text_line F w v) = Ok (w, v).
Proof.
  intros w v [W1 W2] NE D. unfold line_to_vector, text_line.
  assert (X : rstrip is_bspace (w ++ [chr_sp] ++ join [chr_sp] (map (s_repr F) v) ++ [chr_nl]) = w ++ chr_sp :: join [chr_sp] (map (s_repr F) v)).
  { rewrite !app_assoc. rewrite rstrip_app_sp by (repeat constructor). rewrite <- app_assoc. cbn [app].
    assert (Y : exists s c, join [chr_sp] (map (s_repr F) v) = s ++ [c] /\ is_bspace c = false).
    { clear W1 W2 w. induction D as [|a v Da D IH]; [congruence|]. destruct (sf_nospace F dom FO a Da) as [N1 N2].
      destruct v as [|a' v].
      - cbn [map join]. destruct (exists_last N1) as (s & c & E). rewrite E in *. exists s, c. split; [reflexivity|]. apply Forall_app in N2. destruct N2 as [_ N2]. inversion N2; assumption.
      - destruct IH as (s & c & E & B); [discriminate|]. change (join [chr_sp] (map (s_repr F) (a :: a' :: v))) with (s_repr F a ++ [chr_sp] ++ join [chr_sp] (map (s_repr F) (a' :: v))).
        rewrite E. exists (s_repr F a ++ [chr_sp] ++ s), c. split; [rewrite <- !app_assoc; reflexivity | exact B]. }
    destruct Y as (s & c & E & B). rewrite E. replace (w ++ chr_sp :: s ++ [c]) with ((w ++ chr_sp :: s) ++ [c]) by (rewrite <- app_assoc; reflexivity).
    unfold rstrip. rewrite rev_app_distr. cbn [rev app]. rewrite lstrip_id by exact B. cbn [rev]. rewrite rev_involutive. reflexivity. }
  rewrite X. rewrite split_on_app by exact W1.
  rewrite split_on_join.
  - assert (Y : rmapM (fun p => of_option ValueError (s_parse F p)) (map (s_repr F) v) = Ok v).
    { clear NE X. induction D as [|a v Da D IH]; [reflexivity|]. cbn [map rmapM]. rewrite (sf_parse F dom FO a Da). cbn [of_option rbind]. rewrite IH. reflexivity. }
    rewrite Y. reflexivity.
  - destruct v; [congruence | discriminate].
  - apply Forall_forall. intros s Hs. apply in_map_iff in Hs. destruct Hs as (a & <- & Ha). rewrite Forall_forall in D.
    destruct (sf_nospace F dom FO a (D a Ha)) as [_ N2]. intros Hc. rewrite Forall_forall in N2. specialize (N2 _ Hc). discriminate.
Qed.

Lemma line_nonl : forall w v, text_word w -> Forall dom v ->
  ~ In chr_nl (w ++ [chr_sp] ++ join [chr_sp] (map (s_repr F) v)).
Proof.
  intros w v [W1 W2] D H. apply in_app_or in H. destruct H as [H|H]; [contradiction|]. apply in_app_or in H. destruct H as [[H|[]]|H]; [discriminate|].
  induction D as [|a v Da D IH]; [destruct H|]. destruct (sf_nospace F dom FO a Da) as [_ N]. rewrite Forall_forall in N.
  assert (Na : ~ In chr_nl (s_repr F a)) by (intros X; specialize (N _ X); discriminate).
  destruct v as [|a' v]; [cbn [map join] in H; contradiction|].
  change (join [chr_sp] (map (s_repr F) (a :: a' :: v))) with (s_repr F a ++ [chr_sp] ++ join [chr_sp] (map (s_repr F) (a' :: v))) in H.
  apply in_app_or in H. destruct H as [H|H]; [contradiction|]. apply in_app_or in H. destruct H as [[H|[]]|H]; [discriminate | auto].
Qed.

Definition lines_of (es : list entry) : list pystr := map (fun e => text_line F (fst e) (snd e)) es.

Lemma file_lines_of : forall es, (forall e, In e es -> text_word (fst e) /\ Forall dom (snd e)) ->
  file_lines (concat (lines_of es)) = lines_of es.
Proof.
  intros es H.
  induction es as [|e es IH]; [reflexivity|].
  assert (E : concat (lines_of (e :: es)) = (fst e ++ [chr_sp] ++ join [chr_sp] (map (s_repr F) (snd e))) ++ chr_nl :: concat (lines_of es)).
  { cbn [lines_of map concat]. unfold text_line at 1. rewrite <- !app_assoc. reflexivity. }
  rewrite E, file_lines_cons.
  - rewrite IH by (intros e' He; apply H; right; exact He). cbn [lines_of map]. f_equal. unfold text_line. rewrite <- !app_assoc. reflexivity.
  - destruct (H e (or_introl eq_refl)) as [H1 H2]. apply line_nonl; assumption.
Qed.

Lemma read_text_ok : forall d n cnts es done m, d <> 0 ->
  (forall e, In e es -> text_word (fst e) /\ length (snd e) = d /\ Forall dom (snd e)) -> counted cnts es ->
  loaded d n (count_in cnts n) (firsts done) m -> length done <= n ->
  if n - length done <=? length es
  then exists m', read_text F n d cnts (n - length done) (lines_of es) m = Ok m' /\
         loaded d n (count_in cnts n) (firsts (done ++ firstn (n - length done) es)) m'
  else read_text F n d cnts (n - length done) (lines_of es) m = Err EOFErr.
Proof.
  intros d n cnts es. induction es as [|[w v] es IH]; intros done m D H C L Ln.
  - cbn [length]. destruct (n - length done) as [|k] eqn:Ek; cbn.
    + exists m. rewrite app_nil_r. auto.
    + reflexivity.
  - cbn [length lines_of map]. destruct (n - length done) as [|k] eqn:Ek.
    + cbn. exists m. rewrite app_nil_r. auto.
    + destruct (H (w, v) (or_introl eq_refl)) as (Ww & Lv & Dv). cbn [fst snd] in *.
      assert (NEv : v <> []) by (intros ->; cbn in Lv; lia).
      cbn [read_text]. rewrite line_ok by assumption. cbn [rbind fst snd].
      destruct (add_word_step d n cnts done m w v) as (m1 & E1 & L1); try assumption; try lia.
      { destruct cnts as [cs|]; [|exact I]. apply (C (w, v)). left; reflexivity. }
      rewrite E1. cbn [rbind]. specialize (IH (done ++ [(w, v)]) m1).
      rewrite app_length in IH. cbn [length] in IH. replace (n - (length done + 1)) with k in IH by lia.
      replace (S k <=? S (length es)) with (k <=? length es) by lia.
      assert (IH' := IH D (fun e He => H e (or_intror He)) (match cnts return counted cnts ((w,v)::es) -> counted cnts es with None => fun _ => I | Some cs => fun C e He => C e (or_intror He) end C) L1 ltac:(lia)).
      destruct (k <=? length es); [|exact IH'].
      destruct IH' as (m' & E' & L'). exists m'. split; [exact E'|]. cbn [firstn]. rewrite <- app_assoc in L'. exact L'.
Qed.

(** ** Binary *)

Lemma at_space_spec : forall bs w r, at_space bs = Some (w, r) <-> bs = w ++ chr_sp :: r /\ ~ In chr_sp w.
Proof.
  induction bs as [|b bs IH]; intros w r; cbn [at_space].
  - split; [discriminate | intros [E _]; destruct w; discriminate].
  - destruct (b =? chr_sp)%N eqn:E.
    + assert (b = chr_sp) by lia. subst b. split.
      * intros H. injection H as <- <-. split; [reflexivity | intros []].
      * intros [H N]. destruct w as [|c w]; [injection H as <-; reflexivity|]. injection H as H1 _. exfalso. apply N. left; congruence.
    + destruct (at_space bs) as [[w' r']|] eqn:Ea.
      * destruct (proj1 (IH w' r') eq_refl) as [-> N]. split.
        -- intros H. injection H as <- <-. split; [reflexivity|]. intros [H|H]; [lia | contradiction].
        -- intros [H N']. destruct w as [|c w]; [injection H as -> _; lia|]. injection H as <- H.
           assert (X : Some (w', r') = Some (w, r)) by (apply IH; split; [exact H | intros X; apply N'; right; exact X]). injection X as <- <-. reflexivity.
      * split; [discriminate|]. intros [H N]. destruct w as [|c w]; [injection H as -> _; lia|]. injection H as <- H.
        assert (X : None = Some (w, r)) by (apply IH; split; [exact H | intros X; apply N; right; exact X]). discriminate.
Qed.
Lemma at_space_none : forall bs, at_space bs = None <-> ~ In chr_sp bs.
Proof.
  induction bs as [|b bs IH]; cbn [at_space]; [cbn; tauto|]. destruct (b =? chr_sp)%N eqn:E.
  - split; [discriminate | intros H; exfalso; apply H; left; lia].
  - destruct (at_space bs) as [[w r]|]; cbn [In].
    + split; [discriminate | intros H; exfalso]. assert (X : Some (w, r) = None) by (apply IH; tauto). discriminate.
    + split; [intros _ [H|H]; [lia | apply IH in H; auto] | reflexivity].
Qed.

Lemma unpack_ok : forall v r, Forall dom v -> unpack F (length v) (flat_map (s_pack F) v ++ r) = v.
Proof.
  intros v r D. induction D as [|a v Da D IH]; [reflexivity|]. cbn [length unpack flat_map]. rewrite <- app_assoc.
  pose proof (sf_size F dom FO a Da) as S4.
  rewrite firstn_app, skipn_app, S4. change (4 - 4) with 0. rewrite firstn_O, skipn_O, app_nil_r.
  rewrite (firstn_all2 (s_pack F a)) by lia. rewrite (skipn_all2 (s_pack F a)) by lia. cbn [app].
  rewrite (sf_unpack F dom FO a Da), IH. reflexivity.
Qed.
Lemma pack_length : forall v, Forall dom v -> length (flat_map (s_pack F) v) = 4 * length v.
Proof. intros v D. induction D as [|a v Da D IH]; [reflexivity|]. cbn [flat_map]. rewrite app_length, IH, (sf_size F dom FO a Da). cbn [length]. lia. Qed.

Definition good_entry (d : nat) (e : nat * entry) : Prop := binary_word (fst (snd e)) /\ length (snd (snd e)) = d /\ Forall dom (snd (snd e)).

Lemma word_bytes : forall k w, binary_word w -> ~ In chr_sp (repeat chr_nl k ++ utf8 w) /\
  utf8_decode (repeat chr_nl k ++ utf8 w) = Some (repeat chr_nl k ++ w) /\ lstrip (fun c => c =? chr_nl)%N (repeat chr_nl k ++ w) = w.
Proof.
  intros k w (W1 & W2 & W3). split; [|split].
  - intros H. apply in_app_or in H. destruct H as [H|H]; [apply repeat_spec in H; discriminate|]. apply W1. apply utf8_low; [reflexivity | exact H].
  - assert (E : repeat chr_nl k ++ utf8 w = utf8 (repeat chr_nl k ++ w)).
    { rewrite utf8_app. f_equal. symmetry. apply utf8_ascii. apply Forall_forall. intros x Hx. apply repeat_spec in Hx. subst. reflexivity. }
    rewrite E. apply utf8_decode_ok. apply Forall_app. split; [|exact W3]. apply Forall_forall. intros x Hx. apply repeat_spec in Hx. subst. reflexivity.
  - rewrite lstrip_app_sp.
    + destruct w as [|c w]; [reflexivity|]. apply lstrip_id. destruct (c =? chr_nl)%N eqn:E; [|reflexivity]. exfalso. apply (W2 w). f_equal. lia.
    + apply Forall_forall. intros x Hx. apply repeat_spec in Hx. subst. reflexivity.
Qed.

(** What [add_bytes] does on a prefix [chunk] of the remaining bytes. *)
Lemma add_bytes_ok : forall d n cnts es tail, d <> 0 -> incomplete d tail ->
  (forall e, In e es -> good_entry d e) -> counted cnts (map snd es) ->
  forall k done m chunk rest, loaded d n (count_in cnts n) (firsts done) m -> length done + Nat.min k (length es) <= n ->
  chunk ++ rest = concat (map (c_entry F) es) ++ tail ->
  exists p chunk' m', add_bytes F n d cnts k chunk m = Ok (p, chunk', m') /\
    p <= Nat.min k (length es) /\ (rest = [] -> p = Nat.min k (length es)) /\
    chunk' ++ rest = concat (map (c_entry F) (skipn p es)) ++ tail /\
    loaded d n (count_in cnts n) (firsts (done ++ map snd (firstn p es))) m'.
Proof.
  intros d n cnts es tail Dz Inc. induction es as [|[nl [w v]] es IH]; intros G C k done m chunk rest L Ln Ec.
  - exists 0, chunk, m. cbn [firstn skipn map concat length app] in *. rewrite app_nil_r. rewrite Nat.min_0_r.
    split; [|auto]. destruct k as [|k]; [reflexivity|]. cbn [add_bytes]. destruct (at_space chunk) as [[w r]|] eqn:Ea; [|reflexivity].
    apply at_space_spec in Ea. destruct Ea as [-> N]. unfold incomplete in Inc. rewrite <- Ec in Inc. rewrite <- app_assoc in Inc. cbn [app] in Inc.
    assert (X : at_space (w ++ chr_sp :: r ++ rest) = Some (w, r ++ rest)) by (apply at_space_spec; auto). rewrite X in Inc.
    rewrite app_length in Inc. replace (length r <? 4 * d) with true by lia. reflexivity.
  - destruct k as [|k].
    { exists 0, chunk, m. cbn [firstn skipn map length Nat.min]. rewrite app_nil_r. auto. }
    destruct (G (nl, (w, v)) (or_introl eq_refl)) as (Wb & Lv & Dv). cbn [fst snd] in *.
    destruct (word_bytes nl w Wb) as (B1 & B2 & B3). pose proof (pack_length v Dv) as Lp. rewrite Lv in Lp.
    cbn [map concat] in Ec. unfold c_entry at 1 in Ec. unfold binary_entry in Ec. cbn [fst snd] in Ec.
    assert (Ec' : chunk ++ rest = (repeat chr_nl nl ++ utf8 w) ++ chr_sp :: (flat_map (s_pack F) v ++ (concat (map (c_entry F) es) ++ tail))).
    { rewrite Ec. rewrite <- !app_assoc. reflexivity. }
    assert (Stop : rest <> [] -> exists p chunk' m', Ok (0, chunk, m) = Ok (p, chunk', m') /\
      p <= Nat.min (S k) (length ((nl, (w, v)) :: es)) /\ (rest = [] -> p = Nat.min (S k) (length ((nl, (w, v)) :: es))) /\
      chunk' ++ rest = concat (map (c_entry F) (skipn p ((nl, (w, v)) :: es))) ++ tail /\
      loaded d n (count_in cnts n) (firsts (done ++ map snd (firstn p ((nl, (w, v)) :: es)))) m').
    { intros NR. exists 0, chunk, m. split; [reflexivity|]. split; [lia|]. split; [intros; contradiction|]. cbn [skipn firstn map]. rewrite app_nil_r.
      split; [|exact L]. rewrite Ec. cbn [map concat]. unfold c_entry at 2, binary_entry. cbn [fst snd]. reflexivity. }
    cbn [add_bytes]. destruct (at_space chunk) as [[w' r]|] eqn:Ea.
    + apply at_space_spec in Ea. destruct Ea as [Ech N].
      assert (X : at_space (chunk ++ rest) = Some (w', r ++ rest)) by (apply at_space_spec; rewrite Ech, <- app_assoc; auto).
      rewrite Ec' in X.
      assert (Y : at_space ((repeat chr_nl nl ++ utf8 w) ++ chr_sp :: (flat_map (s_pack F) v ++ (concat (map (c_entry F) es) ++ tail)))
                  = Some (repeat chr_nl nl ++ utf8 w, flat_map (s_pack F) v ++ (concat (map (c_entry F) es) ++ tail))) by (apply at_space_spec; auto).
      rewrite Y in X. injection X as Ew Er. subst w'.
      destruct (length r <? 4 * d) eqn:El.
      * apply Stop. intros ->. rewrite app_nil_r in Er. rewrite <- Er, app_length in El. lia.
      * rewrite B2. cbn [of_option rbind]. rewrite B3.
        assert (Er2 : r = flat_map (s_pack F) v ++ skipn (4 * d) r).
        { assert (X : firstn (4 * d) (r ++ rest) = firstn (4 * d) r) by (rewrite firstn_app; replace (4 * d - length r) with 0 by lia; cbn [firstn]; apply app_nil_r).
          rewrite <- Er, firstn_app, Lp, Nat.sub_diag in X. cbn [firstn] in X. rewrite app_nil_r in X. rewrite (firstn_all2 (flat_map (s_pack F) v)) in X by lia.
          rewrite X. symmetry. apply firstn_skipn. }
        assert (Eu : unpack F d r = v) by (rewrite Er2, <- Lv; apply unpack_ok; exact Dv).
        rewrite Eu. cbn [length] in Ln.
        destruct (add_word_step d n cnts done m w v) as (m1 & E1 & L1); try assumption; try lia.
        { destruct cnts as [cs|]; [|exact I]. apply (C (w, v)). left; reflexivity. }
        rewrite E1. cbn [rbind].
        destruct (IH (fun e He => G e (or_intror He)) (match cnts return counted cnts (map snd ((nl,(w,v))::es)) -> counted cnts (map snd es) with None => fun _ => I | Some cs => fun C e He => C e (or_intror He) end C)
                    k (done ++ [(w, v)]) m1 (skipn (4 * d) r) rest L1) as (p & ch & m2 & E2 & P1 & P2 & P3 & P4).
        { rewrite app_length. cbn [length]. lia. }
        { rewrite Er2, <- app_assoc in Er. apply app_inv_head in Er. symmetry. exact Er. }
        rewrite E2. cbn [rbind]. exists (S p), ch, m2. split; [reflexivity|]. cbn [length firstn skipn map].
        split; [lia|]. split; [intros HR; specialize (P2 HR); lia|]. split; [exact P3|].
        rewrite <- app_assoc in P4. exact P4.
    + apply Stop. intros ->. rewrite app_nil_r in Ec'. apply at_space_none in Ea. apply Ea. rewrite Ec'. apply in_or_app. right. left. reflexivity.
Qed.

(** The whole loop, for every chunk size.  [es]: all the entries of the file that are not yet read; either they are all
    wanted or no word occurs twice. *)
Lemma read_binary_ok : forall d n cnts cs tail, d <> 0 -> incomplete d tail -> cs <> 0 ->
  forall fuel es done m chunk rest, (forall e, In e es -> good_entry d e) -> counted cnts (map snd es) ->
  loaded d n (count_in cnts n) (firsts done) m -> length done <= n ->
  (length done + length es <= n \/ NoDup (map fst (done ++ map snd es))) ->
  chunk ++ rest = concat (map (c_entry F) es) ++ tail -> length rest < fuel ->
  if n - length done <=? length es
  then exists m', read_binary F fuel n d cnts cs (length done) chunk rest m = Ok m' /\
         loaded d n (count_in cnts n) (firsts (done ++ firstn (n - length done) (map snd es))) m'
  else read_binary F fuel n d cnts cs (length done) chunk rest m = Err EOFErr.
Proof.
  intros d n cnts cs tail Dz Inc Cz. induction fuel as [|fuel IH]; intros es done m chunk rest G C L Ln Dis Ec Fu; [lia|].
  cbn [read_binary]. destruct (length done <? n) eqn:Eln.
  2:{ assert (length done = n) by lia. replace (n - length done) with 0 by lia. cbn [Nat.leb firstn]. rewrite app_nil_r.
      exists m. split; [|exact L]. replace (length done =? n) with true by lia. reflexivity. }
  assert (Lf : length (firsts done) <= length done) by apply firsts_length.
  assert (Nx : next_index m = length (firsts done)) by apply (L_next _ _ _ _ _ L).
  rewrite Nx. replace (n - length (firsts done) =? 0) with false by lia.
  set (k := n - length (firsts done)).
  assert (Km : Nat.min k (length es) = Nat.min (n - length done) (length es)).
  { destruct Dis as [Dis|Dis]; [lia|]. unfold k. unfold firsts. rewrite map_app in Dis.
    rewrite firsts_nodup; [reflexivity | | intros e _ []].
    clear - Dis. induction (map fst done) as [|x l IHl]; [constructor|]. cbn in Dis. inversion Dis; subst. constructor; [intros X; apply H1, in_or_app; auto | auto]. }
  destruct (add_bytes_ok d n cnts es tail Dz Inc G C k done m (chunk ++ firstn cs rest) (skipn cs rest) L) as (p & ch & m1 & E1 & P1 & P2 & P3 & P4).
  { rewrite Km. lia. } { rewrite <- app_assoc, firstn_skipn. exact Ec. }
  rewrite E1. cbn [rbind].
  destruct (length (firstn cs rest) <? cs) eqn:Esh.
  - assert (Er : skipn cs rest = []) by (apply skipn_all2; rewrite firstn_length in Esh; lia).
    specialize (P2 Er). rewrite Km in P2.
    destruct (n - length done <=? length es) eqn:En.
    + replace (length done + p =? n) with true by lia. exists m1. split; [reflexivity|].
      replace p with (n - length done) in P4 by lia. rewrite <- firstn_map in P4. exact P4.
    + replace (length done + p =? n) with false by lia. reflexivity.
  - rewrite firstn_length in Esh.
    assert (Lp : length (done ++ map snd (firstn p es)) = length done + p) by (rewrite app_length, map_length, firstn_length; lia).
    specialize (IH (skipn p es) (done ++ map snd (firstn p es)) m1 ch (skipn cs rest)).
    rewrite Lp in IH.
    assert (HG : forall e, In e (skipn p es) -> good_entry d e) by (intros e He; apply G; rewrite <- (firstn_skipn p es); apply in_or_app; auto).
    assert (HC : counted cnts (map snd (skipn p es))).
    { destruct cnts as [cc|]; [|exact I]. intros e He. apply C. rewrite <- (firstn_skipn p es), map_app. apply in_or_app; auto. }
    assert (HD : length done + p + length (skipn p es) <= n \/ NoDup (map fst ((done ++ map snd (firstn p es)) ++ map snd (skipn p es)))).
    { rewrite skipn_length. destruct Dis as [Dis|Dis]; [left; lia | right]. rewrite <- app_assoc, <- map_app, firstn_skipn. exact Dis. }
    assert (HF : length (skipn cs rest) < fuel) by (rewrite skipn_length; lia).
    assert (IH' := IH HG HC P4 ltac:(lia) HD P3 HF). rewrite skipn_length in IH'.
    replace (n - (length done + p) <=? length es - p) with (n - length done <=? length es) in IH' by lia.
    destruct (n - length done <=? length es) eqn:En; [|exact IH'].
    destruct IH' as (m' & E' & L'). exists m'. split; [exact E'|].
    replace ((done ++ map snd (firstn p es)) ++ firstn (n - (length done + p)) (map snd (skipn p es))) with (done ++ firstn (n - length done) (map snd es)) in L'; [exact L'|].
    rewrite <- app_assoc. f_equal. rewrite <- (firstn_skipn p es) at 1. rewrite map_app, firstn_app. f_equal.
    + rewrite firstn_all2; [reflexivity|]. rewrite map_length, firstn_length. lia.
    + f_equal. rewrite map_length, firstn_length. lia.
Qed.
End P.
