(** Theorems about background chunking (property C19). *)

From Verif Require Import Base Utils_Model Utils_Proofs Chunkize_Model.
From Coq Require Import ZifyBool ZifyNat.
Local Open Scope nat_scope.

Lemma chunkize_fuel : forall {A} n f f' (it : list A), 1 <= n -> length it < f -> length it < f' ->
  chunkize_serial_loop f it n = chunkize_serial_loop f' it n.
Proof.
  intros A n. induction f as [|f IH]; intros [|f'] it Hn L L'; try lia. cbn [chunkize_serial_loop islice_take].
  destruct (firstn n it) as [|x c] eqn:E; [reflexivity|]. f_equal.
  assert (length (x :: c) = Nat.min n (length it)) by (rewrite <- E; apply firstn_length). cbn [length] in *.
  apply IH; auto; rewrite skipn_length; lia.
Qed.

Lemma chunkize_unfold : forall {A} n (it : list A), 1 <= n ->
  chunkize_serial it n = match firstn n it with [] => [] | c => c :: chunkize_serial (skipn n it) n end.
Proof.
  intros A n it Hn. unfold chunkize_serial at 1. cbn [chunkize_serial_loop islice_take].
  destruct (firstn n it) as [|x c] eqn:E; [reflexivity|]. f_equal. unfold chunkize_serial.
  assert (length (x :: c) = Nat.min n (length it)) by (rewrite <- E; apply firstn_length). cbn [length] in *.
  apply chunkize_fuel; auto; rewrite skipn_length; lia.
Qed.

Section Proofs.
  Context {A : Type}.
  Variables (n maxsize cap : nat).
  Hypothesis Hn : 1 <= n.
  Hypothesis Hmax : 1 <= maxsize.
  Hypothesis Hcap : 1 <= cap.

  Notation item := (option (list A)).
  Notation read := (read_chunk n).

  (** Everything the rest of the corpus will put on the queue. *)
  Definition all_items (it : list A) : list item := map Some (chunkize_serial it n) ++ [None].
  Definition pending (p : @producer A) : list item :=
    match p with
    | PRead it => all_items it
    | PPut (Some c) it => Some c :: all_items it
    | PPut None _ => [None]
    | PDone => []
    | PDead => []
    end.
  Definition received (s : @cstate A) : list item := map Some (c_out s) ++ (if c_done s then [None] else []).

  Lemma all_items_read : forall it, all_items it = pending (read false it).
  Proof.
    intros it. unfold read_chunk. cbn [andb islice_take]. unfold all_items. rewrite chunkize_unfold by exact Hn.
    destruct (firstn n it); reflexivity.
  Qed.

  Definition inv (corpus : list A) (s : @cstate A) : Prop :=
    received s ++ c_pipe s ++ c_buf s ++ pending (c_prod s) = all_items corpus /\
    length (c_buf s) + length (c_pipe s) <= maxsize /\
    c_prod s <> PDead.

  Lemma received_done_out : forall corpus s, inv corpus s -> c_done s = true ->
    c_out s = chunkize_serial corpus n /\ c_pipe s = [] /\ c_buf s = [].
  Proof.
    intros corpus s (E & _ & _) D. unfold received, all_items in E. rewrite D in E.
    assert (G : forall (xs : list (list A)) (ys : list (list A)) rest, map Some xs ++ None :: rest = map Some ys ++ [None] -> xs = ys /\ rest = []).
    { clear. induction xs as [|x xs IH]; intros [|y ys] rest H; cbn in H; try discriminate.
      - inversion H; auto.
      - inversion H; subst. destruct (IH _ _ H2); subst; auto. }
    rewrite <- app_assoc in E. cbn [app] in E. apply G in E. destruct E as [E1 E2].
    apply app_eq_nil in E2. destruct E2 as [E2 E3]. apply app_eq_nil in E3. tauto.
  Qed.

  Lemma inv_step : forall corpus s s', inv corpus s -> cstep n maxsize cap false s s' -> inv corpus s'.
  Proof.
    intros corpus s s' I ST. pose proof I as (E & Q & D). inversion ST; subst; unfold inv, received in *; cbn [c_prod c_buf c_pipe c_out c_done] in *.
    - split; [|split; [exact Q|]].
      + cbn [pending] in E. rewrite all_items_read in E. exact E.
      + unfold read_chunk. cbn [andb islice_take]. destruct (firstn n it); discriminate.
    - split; [|split].
      + rewrite <- E. f_equal. f_equal. rewrite <- app_assoc. f_equal. destruct x; reflexivity.
      + rewrite app_length. cbn [length]. lia.
      + destruct x; discriminate.
    - split; [|split; [|exact D]].
      + rewrite <- E. rewrite <- !app_assoc. reflexivity.
      + rewrite app_length. cbn [length] in *. lia.
    - split; [|split; [|exact D]].
      + rewrite <- E. rewrite map_app, <- !app_assoc. reflexivity.
      + cbn [length] in *. lia.
    - split; [|split; [|exact D]].
      + rewrite <- E. rewrite <- !app_assoc. reflexivity.
      + cbn [length] in *. lia.
  Qed.

  Lemma inv_init : forall corpus, inv corpus (c_init corpus).
  Proof. intros corpus. split; [reflexivity|]. split; [cbn; lia | discriminate]. Qed.

  Lemma inv_steps : forall corpus k s, csteps n maxsize cap false k (c_init corpus) s -> inv corpus s.
  Proof.
    intros corpus k s H. remember (c_init corpus) as s0 eqn:E0. induction H; subst.
    - apply inv_init.
    - eapply inv_step; eauto.
  Qed.

  (** Work left: every pending item is read, put, fed and received once. *)
  Definition prod_work (p : @producer A) : nat :=
    match p with
    | PRead it => 4 * (length (chunkize_serial it n) + 1)
    | PPut (Some _) it => 3 + 4 * (length (chunkize_serial it n) + 1)
    | PPut None _ => 3
    | PDone => 0
    | PDead => 0
    end.
  Definition work (s : @cstate A) : nat := prod_work (c_prod s) + 2 * length (c_buf s) + length (c_pipe s).

  Lemma work_step : forall dead s s', cstep n maxsize cap dead s s' -> work s' < work s.
  Proof.
    clear Hmax Hcap. intros dead s s' ST. inversion ST; subst; unfold work; cbn [c_prod c_buf c_pipe].
    - unfold read_chunk. destruct (dead && (length it <? n)); [cbn [prod_work]; lia|]. cbn [islice_take prod_work].
      rewrite (chunkize_unfold n it Hn). destruct (firstn n it); cbn [prod_work length]; lia.
    - rewrite app_length. destruct x; cbn [prod_work length]; lia.
    - rewrite app_length. cbn [length]. lia.
    - cbn [length]; lia.
    - cbn [length]; lia.
  Qed.
End Proofs.

(** Safety: under every interleaving the consumer has received a prefix of the
    serial chunks; once the generator ends it has received all of them; the
    queue never holds more than [maxsize] chunks. *)
Theorem chunkize_background_safe : forall {A} (corpus : list A) n maxsize cap k s, 1 <= n -> 1 <= maxsize -> 1 <= cap ->
  csteps n maxsize cap false k (c_init corpus) s ->
  (exists rest, chunkize_serial corpus n = c_out s ++ rest) /\
  (c_done s = true -> c_out s = chunkize_serial corpus n) /\
  length (c_buf s) + length (c_pipe s) <= maxsize.
Proof.
  intros A corpus n maxsize cap k s Hn Hm Hc H. pose proof (inv_steps n maxsize cap Hn Hm Hc corpus k s H) as I.
  split; [|split; [intros D; apply (received_done_out n maxsize corpus s I D) | apply I]].
  destruct I as (E & _ & _). unfold received, all_items in E.
  assert (G : forall (xs : list (list A)) (ys : list (list A)) rest, map Some xs ++ rest = map Some ys ++ [None] -> exists r, ys = xs ++ r).
  { clear. induction xs as [|x xs IH]; intros ys rest HH; [exists ys; reflexivity|].
    destruct ys as [|y ys]; cbn in HH; [discriminate|]. inversion HH; subst. destruct (IH _ _ H1) as [r ->]. exists r. reflexivity. }
  rewrite <- app_assoc in E. eapply G; exact E.
Qed.
Print Assumptions chunkize_background_safe.

(** No deadlock: until the generator ends, some actor can move. *)
Theorem chunkize_background_progress : forall {A} (corpus : list A) n maxsize cap k s, 1 <= n -> 1 <= maxsize -> 1 <= cap ->
  csteps n maxsize cap false k (c_init corpus) s -> c_done s = false ->
  exists s', cstep n maxsize cap false s s'.
Proof.
  intros A corpus n maxsize cap k s Hn Hm Hc H D. pose proof (inv_steps n maxsize cap Hn Hm Hc corpus k s H) as (E & Q & ND).
  destruct s as [p buf pipe out done]. cbn [c_prod c_buf c_pipe c_out c_done] in *. subst done.
  destruct pipe as [|[c|] pipe]; [|eexists; apply step_get_chunk | eexists; apply step_get_end].
  destruct buf as [|x buf]; [|eexists; apply step_feed; cbn [length]; lia].
  destruct p as [it|x it| |]; [eexists; apply step_read | eexists; apply step_put; cbn [length]; lia | | congruence].
  exfalso. unfold received, all_items in E. cbn [c_out c_done pending app] in E. rewrite !app_nil_r in E.
  assert (X : In None (map Some out)) by (rewrite E; apply in_app_iff; simpl; auto).
  apply in_map_iff in X. destruct X as (y & Y & _). discriminate.
Qed.
Print Assumptions chunkize_background_progress.

(** Termination: no execution is longer than four moves per queued item, so
    every execution ends, and (by the two theorems above) ends with exactly the
    serial chunks. *)
Theorem chunkize_background_terminates : forall {A} (corpus : list A) n maxsize cap k s, 1 <= n ->
  csteps n maxsize cap false k (c_init corpus) s -> k <= 4 * (length (chunkize_serial corpus n) + 1).
Proof.
  intros A corpus n maxsize cap k s Hn H.
  assert (G : k + work n s <= work n (c_init corpus)).
  { remember (c_init corpus) as s0 eqn:E0. clear E0. induction H; [lia|]. pose proof (work_step n maxsize cap Hn false _ _ H0). lia. }
  unfold work at 2, c_init in G. cbn [c_prod c_buf c_pipe prod_work length] in G. lia.
Qed.
Print Assumptions chunkize_background_terminates.

Theorem chunkize_background_complete : forall {A} (corpus : list A) n maxsize cap k s, 1 <= n -> 1 <= maxsize -> 1 <= cap ->
  csteps n maxsize cap false k (c_init corpus) s -> (forall s', ~ cstep n maxsize cap false s s') ->
  c_done s = true /\ c_out s = chunkize_serial corpus n.
Proof.
  intros A corpus n maxsize cap k s Hn Hm Hc H ST.
  assert (D : c_done s = true).
  { destruct (c_done s) eqn:D; [reflexivity|]. destruct (chunkize_background_progress corpus n maxsize cap k s Hn Hm Hc H D) as [s' S].
    exfalso; eapply ST; eauto. }
  split; [exact D|]. apply (chunkize_background_safe corpus n maxsize cap k s Hn Hm Hc H). exact D.
Qed.
Print Assumptions chunkize_background_complete.

(** A complete run with queue size 1. *)
Example chunkize_background_ex : exists k s,
  csteps 2 1 1 false k (c_init [1; 2; 3]) s /\ c_done s = true /\ c_out s = [[1; 2]; [3]].
Proof.
  exists 12, (mkC PDone [] [] [[1; 2]; [3]] true). split; [|split; reflexivity].
  - eapply csteps_S; [|apply (step_get_end 2 1 1 false PDone [] [] [[1;2];[3]])].
    eapply csteps_S; [|apply (step_feed 2 1 1 false PDone None [] [] [[1;2];[3]] false); cbn; lia].
    eapply csteps_S; [|apply (step_put 2 1 1 false None [] [] [] [[1;2];[3]] false); cbn; lia].
    eapply csteps_S; [|apply (step_read 2 1 1 false [] [] [] [[1;2];[3]] false)].
    eapply csteps_S; [|apply (step_get_chunk 2 1 1 false (PRead []) [] [3] [] [[1;2]])].
    eapply csteps_S; [|apply (step_feed 2 1 1 false (PRead []) (Some [3]) [] [] [[1;2]] false); cbn; lia].
    eapply csteps_S; [|apply (step_put 2 1 1 false (Some [3]) [] [] [] [[1;2]] false); cbn; lia].
    eapply csteps_S; [|apply (step_read 2 1 1 false [3] [] [] [[1;2]] false)].
    eapply csteps_S; [|apply (step_get_chunk 2 1 1 false (PRead [3]) [] [1;2] [] [])].
    eapply csteps_S; [|apply (step_feed 2 1 1 false (PRead [3]) (Some [1;2]) [] [] [] false); cbn; lia].
    eapply csteps_S; [|apply (step_put 2 1 1 false (Some [1;2]) [3] [] [] [] false); cbn; lia].
    eapply csteps_S; [|apply (step_read 2 1 1 false [1;2;3] [] [] [] false)].
    apply csteps_0.
Qed.

(** If iterating the corpus raises in the background process, the end marker is
    never sent: a state is reached in which nobody can move and the consumer
    still waits.  ([chunkize_serial] would raise the exception.) *)
Theorem chunkize_background_raising_refuted : exists (corpus : list nat) n maxsize cap k s,
  1 <= n /\ 1 <= maxsize /\ 1 <= cap /\
  csteps n maxsize cap true k (c_init corpus) s /\ c_done s = false /\ forall s', ~ cstep n maxsize cap true s s'.
Proof.
  exists [1], 2, 1, 1, 1. exists (mkC PDead [] [] [] false).
  split; [lia|]. split; [lia|]. split; [lia|]. split; [|split; [reflexivity|]].
  - eapply csteps_S; [apply csteps_0 | apply (step_read 2 1 1 true [1] [] [] [] false)].
  - intros s' H. inversion H.
Qed.
Print Assumptions chunkize_background_raising_refuted.
