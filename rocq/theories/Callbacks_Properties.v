(** Properties of the metrics of topic models. *)
From Verif Require Import Base Str Callbacks_Model.
Local Open Scope nat_scope.
Local Open Scope list_scope.

Section Metrics.
Context {Model V : Type}.
Notation metric := (metric Model V).

(** ** Specification *)

(** The value of a metric after pass [p]: of the model then, compared with the model one pass earlier *)
Definition before (start : Model) (models : list Model) (p : nat) : option Model := match p with 0 => Some start | S p' => nth_error models p' end.
Definition value_at (compares : bool) (m : metric) (start : Model) (models : list Model) (p : nat) (v : V) : Prop :=
  exists model, nth_error models p = Some model /\ v = m_value m model (if compares then before start models p else None).
Definition history (ms : list metric) (m : metric) (start : Model) (models : list Model) (vs : list V) : Prop :=
  length vs = length models /\ forall p v, nth_error vs p = Some v -> value_at (any_compares ms) m start models p v.

(** ** Proofs *)
Definition val (model : Model) (prev : option Model) (m : metric) : V := m_value m model prev.
Lemma loop_app : forall epoch (ms1 ms2 : list metric) i (model : Model) prev cur q ws,
  epoch_loop epoch i (ms1 ++ ms2) model prev cur q ws =
  let* r := epoch_loop epoch i ms1 model prev cur q ws in let '(cur', q', ws') := r in epoch_loop epoch (i + length ms1) ms2 model prev cur' q' ws'.
Proof.
  intros epoch ms1. induction ms1 as [|m ms1 IH]; intros ms2 i model prev cur q ws; cbn [app epoch_loop length].
  - cbn [rbind]. rewrite Nat.add_0_r. reflexivity.
  - destruct (draw epoch i m _ q ws) as [qw|]; cbn [rbind]; [|reflexivity]. rewrite IH. rewrite <- Nat.add_succ_comm. reflexivity.
Qed.
Definition record (model : Model) (prev : option Model) (cur : dict pystr V) (ms : list metric) : dict pystr V := fold_left (fun d m => dset d (m_label m) (val model prev m)) ms cur.
Lemma loop_silent : forall epoch (ms : list metric) i model prev cur q ws, Forall (fun m => m_drawn m = false) ms -> epoch_loop epoch i ms model prev cur q ws = Ok (record model prev cur ms, q, ws).
Proof.
  intros epoch ms. induction ms as [|m ms IH]; intros i model prev cur q ws F; [reflexivity|]. inversion F as [|? ? Hd F']; subst. cbn [epoch_loop]. unfold draw. rewrite Hd. cbn [negb rbind fst snd]. apply IH. exact F'.
Qed.
Definition arrays (ms : list metric) : list metric := filter m_array ms.
Definition more {X} (q : option (list X)) (l : list X) : option (list X) := match q with Some q => Some (q ++ l) | None => None end.
Lemma more_nil : forall {X} (q : option (list X)), more q [] = q.
Proof. intros X [q|]; cbn; [rewrite app_nil_r|]; reflexivity. Qed.
Lemma loop_first : forall (ms : list metric) i model prev cur q ws, Forall (fun m => m_drawn m = true) ms -> (q = None -> arrays ms = []) ->
  epoch_loop 0 i ms model prev cur q ws = Ok (record model prev cur ms, more q (map (fun m => [val model prev m]) (arrays ms)), ws ++ map (fun m => [val model prev m]) ms).
Proof.
  intros ms. induction ms as [|m ms IH]; intros i model prev cur q ws F Hq; [cbn; rewrite more_nil, app_nil_r; reflexivity|]. inversion F as [|? ? Hd F']; subst. cbn [epoch_loop]. unfold draw. rewrite Hd. cbn [negb Nat.eqb].
  unfold arrays in *. cbn [filter map] in *. destruct (m_array m) eqn:Ea.
  - destruct q as [q|]; [|specialize (Hq eq_refl); discriminate]. cbn [rbind fst snd]. rewrite IH; [|exact F'|discriminate]. cbn [more map]. rewrite <- !app_assoc. reflexivity.
  - cbn [rbind fst snd]. rewrite IH; [|exact F'|exact Hq]. rewrite <- app_assoc. reflexivity.
Qed.
Lemma nth_pre : forall {A} (pre : list A) x post, nth_error (pre ++ x :: post) (length pre) = Some x.
Proof. induction pre; intros; cbn; auto. Qed.
Lemma set_pre : forall {A} (pre : list A) x y post, set_at (pre ++ x :: post) (length pre) y = pre ++ y :: post.
Proof. induction pre as [|a pre IH]; intros; cbn; [reflexivity|]. f_equal. apply IH. Qed.
Lemma loop_later : forall epoch (ms : list metric) pre (h : metric -> list V) model prev cur q tl, epoch <> 0 -> Forall (fun m => m_drawn m = true) ms ->
  q = None /\ arrays ms = [] /\ tl = [] \/ q = Some (map h (arrays ms) ++ tl) ->
  epoch_loop epoch (length pre) ms model prev cur q (pre ++ map h ms) =
  Ok (record model prev cur ms, match q with None => None | Some _ => Some (tl ++ map (fun m => h m ++ [val model prev m]) (arrays ms)) end, pre ++ map (fun m => h m ++ [val model prev m]) ms).
Proof.
  intros epoch ms. induction ms as [|m ms IH]; intros pre h model prev cur q tl NE F Hq.
  - cbn. destruct Hq as [(-> & _ & ->)| ->]; cbn; rewrite ?app_nil_r; reflexivity.
  - inversion F as [|? ? Hd F']; subst. cbn [epoch_loop map]. unfold draw. rewrite Hd. cbn [negb]. rewrite (proj2 (Nat.eqb_neq _ _) NE). rewrite nth_pre.
    unfold arrays in Hq. cbn [filter] in Hq. fold (arrays ms) in Hq. unfold arrays at 1. cbn [filter]. fold (arrays ms).
    assert (Lp : S (length pre) = length (pre ++ [h m ++ [val model prev m]])) by (rewrite app_length; cbn; lia).
    assert (Wp : forall l, pre ++ (h m ++ [val model prev m]) :: l = (pre ++ [h m ++ [val model prev m]]) ++ l) by (intros; rewrite <- app_assoc; reflexivity).
    destruct (m_array m) eqn:Ea.
    + destruct Hq as [(_ & H & _)| ->]; [discriminate|]. cbn [map app rbind fst snd]. fold (val model prev m). rewrite set_pre, (Wp (map h ms)), Lp. rewrite (IH _ h _ _ _ (Some ((map h (arrays ms) ++ tl) ++ [h m ++ [val model prev m]])) (tl ++ [h m ++ [val model prev m]])); [|exact NE|exact F'|right; rewrite <- app_assoc; reflexivity].
      rewrite <- !app_assoc. reflexivity.
    + cbn [rbind fst snd]. fold (val model prev m). rewrite set_pre, (Wp (map h ms)), Lp. rewrite (IH _ h _ _ _ q tl); [|exact NE|exact F'|exact Hq]. rewrite <- !app_assoc. reflexivity.
Qed.

(** The recorded values *)
Lemma record_keys : forall model prev ms cur, NoDup (map m_label ms) -> (forall k, In k (map m_label ms) -> ~ In k (dkeys cur)) -> record model prev cur ms = cur ++ map (fun m => (m_label m, val model prev m)) ms.
Proof.
  intros model prev ms. induction ms as [|m ms IH]; intros cur ND Fr; cbn [record fold_left map]; [rewrite app_nil_r; reflexivity|]. cbn [map] in ND. inversion ND as [|? ? Nm ND']; subst.
  assert (E : dset cur (m_label m) (val model prev m) = cur ++ [(m_label m, val model prev m)]).
  { assert (Nk : ~ In (m_label m) (dkeys cur)) by (apply Fr; left; reflexivity). clear - Nk. induction cur as [|[k v] cur IH]; [reflexivity|]. cbn [dset]. destruct (eq_dec k (m_label m)) as [->|NE]; [exfalso; apply Nk; left; reflexivity|]. cbn [app]. f_equal. apply IH. intros H. apply Nk. right. exact H. }
  fold (record model prev (dset cur (m_label m) (val model prev m)) ms). rewrite IH; [|exact ND'|].
  - rewrite E, <- app_assoc. reflexivity.
  - intros k Hk. rewrite E. unfold dkeys. rewrite map_app, in_app_iff. intros [H|[H|[]]]; [apply (Fr k); [right; exact Hk|exact H]|]. cbn in H. subst k. contradiction.
Qed.
Lemma keep_get : forall (l : dict pystr V) hist k, NoDup (map fst l) -> dget (keep hist l) k = match dget l k with Some v => Some (dget_or hist k [] ++ [v]) | None => dget hist k end.
Proof.
  intros l. induction l as [|[k0 v0] l IH]; intros hist k ND; [reflexivity|]. cbn [map fst] in ND. inversion ND as [|? ? Nk ND']; subst. unfold keep. cbn [fold_left fst snd]. fold (keep (dset hist k0 (dget_or hist k0 [] ++ [v0])) l). rewrite IH by exact ND'. cbn [dget].
  unfold dget_or at 1. rewrite dget_dset. destruct (eq_dec k0 k) as [->|NE].
  - assert (E : dget l k = None) by (apply dget_None; exact Nk). rewrite E. reflexivity.
  - reflexivity.
Qed.
Lemma dget_labels : forall model prev ms (m : metric), NoDup (map m_label ms) -> In m ms -> dget (map (fun m => (m_label m, val model prev m)) ms) (m_label m) = Some (val model prev m).
Proof.
  intros model prev ms m ND Hm. apply In_dget; [unfold dkeys; rewrite map_map; exact ND|]. apply (in_map (fun m => (m_label m, val model prev m))). exact Hm.
Qed.

(** The invariant after the passes [old] *)
Definition prev_of (ms : list metric) (start : Model) (old : list Model) : option Model := if any_compares ms then Some (last old start) else None.
Fixpoint values (ms : list metric) (m : metric) (start : Model) (old models : list Model) : list V :=
  match models with [] => [] | model :: rest => m_value m model (prev_of ms start old) :: values ms m start (old ++ [model]) rest end.
Lemma values_app : forall ms m start models old x, values ms m start old (models ++ [x]) = values ms m start old models ++ [m_value m x (prev_of ms start (old ++ models))].
Proof. intros ms m start models. induction models as [|y models IH]; intros old x; cbn [values app]; [rewrite app_nil_r; reflexivity|]. rewrite IH, <- app_assoc. reflexivity. Qed.
Lemma last_snoc : forall {A} (l : list A) x d, last (l ++ [x]) d = x.
Proof. induction l as [|a l IH]; intros x d; [reflexivity|]. cbn [app]. destruct (l ++ [x]) eqn:E; [destruct l; discriminate|]. rewrite <- E. cbn [last]. rewrite E, <- E. apply IH. Qed.
Lemma before_last : forall start models p model, nth_error models p = Some model -> before start models p = Some (last (firstn p models) start).
Proof.
  intros start models p model H. destruct p as [|p]; [reflexivity|]. cbn [before]. assert (L : S p < length models) by (apply nth_error_Some; congruence).
  destruct (nth_error models p) as [x|] eqn:E; [|apply nth_error_None in E; lia].
  f_equal. apply nth_error_split in E. destruct E as (l1 & l2 & -> & Hl). replace (S p) with (length (l1 ++ [x]) + 0) by (rewrite app_length; cbn; lia).
  replace (l1 ++ x :: l2) with ((l1 ++ [x]) ++ l2) by (rewrite <- app_assoc; reflexivity). rewrite firstn_app_2. cbn [firstn]. rewrite app_nil_r, last_snoc. reflexivity.
Qed.
Lemma values_history : forall ms m start models, history ms m start models (values ms m start [] models).
Proof.
  intros ms m start models. split.
  - assert (K : forall models old, length (values ms m start old models) = length models) by (induction models0; intros; cbn; auto). apply K.
  - intros p v H. assert (K : forall rest old, nth_error (values ms m start old rest) p = Some v -> exists model, nth_error rest p = Some model /\ v = m_value m model (prev_of ms start (old ++ firstn p rest))).
    { clear H. revert v. induction p as [|p IH]; intros v [|x rest] old H; try discriminate; cbn in H.
      - injection H as <-. exists x. split; [reflexivity|]. cbn [firstn]. rewrite app_nil_r. reflexivity.
      - apply IH in H. destruct H as (model & H1 & H2). exists model. split; [exact H1|]. cbn [firstn]. rewrite <- app_assoc in H2. exact H2. }
    destruct (K models [] H) as (model & H1 & ->). exists model. split; [exact H1|]. f_equal. unfold prev_of. destruct (any_compares ms); [|reflexivity]. symmetry. apply (before_last start models p model H1).
Qed.

(** What holds before a pass.  [ds]: the metrics that are drawn. *)
Definition inv (ds ns : list metric) (start : Model) (old : list Model) (c : callback Model V) (hist : dict pystr (list V)) : Prop :=
  let ms := ds ++ ns in
  c_metrics c = ms /\ c_previous c = prev_of ms start old /\
  (old = [] -> c_queue c = (if any_compares ms then Some [] else None) /\ c_windows c = [] /\ hist = []) /\
  (old <> [] -> c_queue c = (if any_compares ms then Some (map (fun m => values ms m start [] old) (arrays ds)) else None) /\ c_windows c = map (fun m => values ms m start [] old) ds /\
     (NoDup (map m_label ms) -> forall m, In m ms -> dget hist (m_label m) = Some (values ms m start [] old))).
Lemma inv_step : forall ds ns start old c hist model, Forall (fun m => m_drawn m = true) ds -> Forall (fun m => m_drawn m = false) ns -> (any_compares (ds ++ ns) = false -> arrays ds = []) ->
  inv ds ns start old c hist -> exists cur c', on_epoch_end c (length old) model = Ok (cur, c') /\ inv ds ns start (old ++ [model]) c' (keep hist cur).
Proof.
  intros ds ns start old c hist model Fd Fn Ha (I1 & I2 & I3 & I4). set (ms := ds ++ ns) in *. unfold on_epoch_end. rewrite I1, I2. subst ms. set (prev := prev_of (ds ++ ns) start old).
  set (ms := ds ++ ns) in *.
  assert (L : exists q', epoch_loop (length old) 0 ms model prev [] (c_queue c) (c_windows c) = Ok (record model prev [] ms, q', map (fun m => values ms m start [] (old ++ [model])) ds) /\
     q' = if any_compares ms then Some (map (fun m => values ms m start [] (old ++ [model])) (arrays ds)) else None).
  { unfold ms at 1. rewrite loop_app. assert (D : old = [] \/ old <> []) by (destruct old; [left; reflexivity|right; discriminate]). destruct D as [Eo|Ne].
    - destruct (I3 Eo) as (Q & W & _). subst old. rewrite Q, W. cbn [length]. rewrite loop_first; [|exact Fd|destruct (any_compares ms); [discriminate|intros _; apply Ha; reflexivity]].
      cbn [rbind]. rewrite loop_silent by exact Fn. eexists. split.
      + f_equal. f_equal. f_equal. unfold record, ms. rewrite fold_left_app. reflexivity.
      + destruct (any_compares ms); reflexivity.
    - destruct (I4 Ne) as (Q & W & _).
      assert (NL : length old <> 0) by (destruct old; [congruence|cbn; lia]).
      rewrite W.
      pose proof (loop_later (length old) ds [] (fun m => values ms m start [] old) model prev [] (c_queue c) [] NL Fd) as LL. cbn [length app] in LL. rewrite LL; clear LL.
      + cbn [rbind]. rewrite loop_silent by exact Fn. eexists. split.
        * cbn [app]. f_equal. f_equal; [f_equal; unfold record, ms; rewrite fold_left_app; reflexivity|]. apply map_ext. intros m. rewrite values_app. reflexivity.
        * rewrite Q. destruct (any_compares ms); [|reflexivity]. f_equal. cbn [app]. apply map_ext. intros m. rewrite values_app. reflexivity.
      + rewrite Q. destruct (any_compares ms) eqn:Ec; [right; rewrite app_nil_r; reflexivity|left; split; [reflexivity|split; [apply Ha; reflexivity|reflexivity]]]. }
  destruct L as (q' & L & Q). rewrite L. cbn [rbind]. do 2 eexists. split; [reflexivity|].
  split; [reflexivity|]. split; [|split].
  - cbn [c_previous]. fold ms. unfold prev, prev_of. destruct (any_compares ms); [|reflexivity]. rewrite last_snoc. reflexivity.
  - intros E. destruct old; discriminate.
  - intros _. cbn [c_queue c_windows]. split; [exact Q|]. split; [reflexivity|]. intros ND m Hm. rewrite record_keys by (auto; intros k _ []). cbn [app].
    rewrite keep_get by (rewrite map_map; exact ND). rewrite dget_labels by assumption. f_equal. rewrite values_app. f_equal.
    destruct old as [|o old']; [destruct (I3 eq_refl) as (_ & _ & ->); reflexivity|]. assert (Ne : o :: old' <> []) by discriminate. destruct (I4 Ne) as (_ & _ & H). unfold dget_or. fold ms in H. rewrite (H ND m Hm). reflexivity.
Qed.
Lemma inv_passes : forall ds ns start models old c hist, Forall (fun m => m_drawn m = true) ds -> Forall (fun m => m_drawn m = false) ns -> (any_compares (ds ++ ns) = false -> arrays ds = []) ->
  inv ds ns start old c hist -> exists hist' c', passes (length old) models c hist = Ok (hist', c') /\ inv ds ns start (old ++ models) c' hist'.
Proof.
  intros ds ns start models. induction models as [|model models IH]; intros old c hist Fd Fn Ha I; [exists hist, c; rewrite app_nil_r; split; [reflexivity|exact I]|].
  cbn [passes]. destruct (inv_step ds ns start old c hist model Fd Fn Ha I) as (cur & c' & E & I'). rewrite E. cbn [rbind fst snd].
  replace (S (length old)) with (length (old ++ [model])) by (rewrite app_length; cbn; lia). destruct (IH _ _ _ Fd Fn Ha I') as (hist' & c'' & E' & I''). exists hist', c''. split; [exact E'|]. rewrite <- app_assoc in I''. exact I''.
Qed.
Lemma inv_start : forall ds ns start, inv ds ns start [] (set_model (ds ++ ns) start) [].
Proof. intros ds ns start. unfold inv, set_model, prev_of. destruct (any_compares (ds ++ ns)); cbn; repeat split; try congruence; contradiction. Qed.

(** ** Theorems *)

(** With distinct labels the model keeps for each metric its value after every pass; Diff and Convergence compare with the model one pass earlier.
    If the drawn metrics come first, each window shows all values of its metric. *)
Theorem metrics_history : forall (ds ns : list metric) start models, Forall (fun m => m_drawn m = true) ds -> Forall (fun m => m_drawn m = false) ns ->
  (forall m, In m ds -> m_array m = true -> any_compares (ds ++ ns) = true) -> models <> [] ->
  exists hist c, update (ds ++ ns) start models = Ok (hist, c) /\
    (NoDup (map m_label (ds ++ ns)) -> forall m, In m (ds ++ ns) -> exists vs, dget hist (m_label m) = Some vs /\ history (ds ++ ns) m start models vs) /\
    Forall2 (fun m w => history (ds ++ ns) m start models w) ds (c_windows c).
Proof.
  intros ds ns start models Fd Fn Ha NE. unfold update.
  assert (Ha' : any_compares (ds ++ ns) = false -> arrays ds = []).
  { intros E. unfold arrays. destruct (filter m_array ds) as [|m l] eqn:Ef; [reflexivity|]. assert (Hm : In m (filter m_array ds)) by (rewrite Ef; left; reflexivity). apply filter_In in Hm. rewrite (Ha m) in E by tauto. discriminate. }
  destruct (inv_passes ds ns start models [] (set_model (ds ++ ns) start) [] Fd Fn Ha' (inv_start ds ns start)) as (hist & c & E & I). cbn [length app] in *. exists hist, c. split; [exact E|].
  destruct I as (_ & _ & _ & I). destruct (I NE) as (_ & W & H). split.
  - intros ND m Hm. eexists. split; [apply H; assumption|apply values_history].
  - rewrite W. clear. set (ms := ds ++ ns). clearbody ms. induction ds as [|m ds IH]; cbn [map]; constructor; [apply values_history|exact IH].
Qed.
End Metrics.

(** Violation: a metric that is not drawn before one that is: the second pass fails *)
Definition plain_metric (label : String.string) (drawn : bool) : metric nat nat := Metric (str label) false drawn false (fun m _ => m).
Theorem window_order_refuted : exists witness, witness = [plain_metric "Coherence" false; plain_metric "Perplexity" true] /\ (update witness 0 [1; 2] = Err IndexError).
Proof. exists [plain_metric "Coherence" false; plain_metric "Perplexity" true]. split; [reflexivity|]. reflexivity. Qed.
(** Violation: of two metrics with the same label only the last is kept *)
Theorem same_label_refuted : exists c, update [Metric (str "Diff") true false true (fun m _ => m); Metric (str "Diff") true false true (fun m p => match p with Some p => m - p | None => 0 end)] 1 [5; 7] = Ok ([(str "Diff", [4; 2])], c).
Proof. eexists. reflexivity. Qed.

(** ** Which model the metrics see *)
Section Seen.
Context {Model Chunk : Type}.
Variable step : Model -> list Chunk -> Model.
Lemma pass_pending : forall u chunks no pending model, u <> 0 -> length pending = no mod u -> length (snd (pass_loop step u no chunks pending model)) = (no + length chunks) mod u.
Proof.
  intros u chunks. induction chunks as [|c chunks IH]; intros no pending model Hu Hp; cbn [pass_loop length]; [rewrite Nat.add_0_r; exact Hp|].
  rewrite (proj2 (Nat.eqb_neq _ _) Hu). cbn [negb andb]. replace (no + S (length chunks)) with (S no + length chunks) by lia. destruct (Nat.eqb_spec ((no + 1) mod u) 0) as [E|E].
  - apply IH; [exact Hu|]. cbn. rewrite <- E. f_equal. lia.
  - apply IH; [exact Hu|]. rewrite app_length. cbn [length]. rewrite Hp. replace (S no) with (no + 1) by lia.
    pose proof (Nat.mod_upper_bound no u Hu) as B. destruct (Nat.eq_dec (no mod u + 1) u) as [E2|NE].
    + exfalso. apply E. rewrite <- Nat.add_mod_idemp_l, E2 by exact Hu. apply Nat.mod_same. exact Hu.
    + rewrite <- Nat.add_mod_idemp_l by exact Hu. symmetry. apply Nat.mod_small. lia.
Qed.
(** The metrics see the model as it is after the pass if the chunks divide evenly into the updates *)
Theorem metrics_see_pass : forall u chunks n model, u <> 0 -> length chunks mod u = 0 -> seen_models step u chunks n model = after_passes step u chunks n model.
Proof.
  intros u chunks n. induction n as [|n IH]; intros model Hu Hm; [reflexivity|]. cbn [seen_models after_passes]. unfold one_pass.
  pose proof (pass_pending u chunks 0 [] model Hu) as P. rewrite Nat.mod_0_l in P by exact Hu. specialize (P eq_refl). rewrite Nat.add_0_l, Hm in P.
  destruct (pass_loop step u 0 chunks [] model) as [seen pending]. cbn [snd] in P. destruct pending; [|discriminate]. f_equal. apply IH; assumption.
Qed.
End Seen.
(** Violation: otherwise they see the model before its last update.  In batch training (update_every = 0) the values of the first pass are those of the untrained model, and
    no value belongs to the final model. *)
Theorem batch_metrics_refuted : exists c, let step := fun (m : nat) (chunks : list nat) => m + length chunks in
  train step [plain_metric "Perplexity" false] 0 [10; 20; 30] 2 0 = Ok ([(str "Perplexity", [0; 3])], c) /\ after_passes step 0 [10; 20; 30] 2 0 = [3; 6].
Proof. eexists. split; reflexivity. Qed.
Theorem batch_sees_start : forall {Model Chunk} (step : Model -> list Chunk -> Model) chunks n model, 0 < n -> nth_error (seen_models step 0 chunks n model) 0 = Some model.
Proof.
  intros Model Chunk step chunks n model Hn. destruct n as [|n]; [lia|]. cbn [seen_models]. unfold one_pass.
  assert (K : forall chunks no pending, fst (pass_loop step 0 no chunks pending model) = model) by (induction chunks0 as [|c l IH]; intros; cbn [pass_loop Nat.eqb negb andb]; [reflexivity|apply IH]).
  specialize (K chunks 0 []). destruct (pass_loop step 0 0 chunks [] model) as [seen pending]. cbn [fst] in K. subst seen. reflexivity.
Qed.
(** One drawn difference, one perplexity, three passes *)
Example metrics_x : match update [Metric (str "Diff") true true true (fun m p => match p with Some p => m - p | None => 0 end); plain_metric "Perplexity" false] 1 [3; 6; 10] with
  | Ok (h, c) => h = [(str "Diff", [2; 3; 4]); (str "Perplexity", [3; 6; 10])] /\ c_windows c = [[2; 3; 4]] | Err _ => False end.
Proof. vm_compute. split; reflexivity. Qed.
Example online_x : seen_models (fun (m : nat) (chunks : list nat) => m + length chunks) 1 [10; 20; 30] 2 0 = [3; 6].
Proof. reflexivity. Qed.

Print Assumptions metrics_history.
Print Assumptions window_order_refuted.
Print Assumptions same_label_refuted.
Print Assumptions metrics_see_pass.
Print Assumptions batch_metrics_refuted.
Print Assumptions batch_sees_start.
