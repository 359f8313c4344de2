(** Poincaré training from the relations to the vectors (property C87). *)
From Coq Require Import Reals Lra Psatz.
From Verif Require Import Base KeyedVectors_Model MatReal_Model W2vGrad_Spec PoincareGeo_Model PoincareGeo_Proofs PoincareGeo_Proofs2 PoincareGeo_Properties PoincareVocab_Model PoincareVocab_Proofs PoincareVocab_Properties.
Local Open Scope R_scope.

(** The initial vectors: components of at most [r] in absolute value. *)
Lemma inner_bound : forall r v, 0 <= r -> Forall (fun x => Rabs x <= r) v -> inner v v <= INR (length v) * r ^ 2.
Proof.
  intros r v Hr. induction 1 as [|x v Hx Hv IH]; [cbn; lra|]. cbn [inner length]. rewrite S_INR. assert (x * x <= r ^ 2). { rewrite <- (Rabs_pos_eq (x * x)) by nra. rewrite Rabs_mult. pose proof (Rabs_pos x). nra. } lra.
Qed.
Theorem init_in_ball : forall r size v, 0 <= r -> INR size * r ^ 2 < 1 -> length v = size -> Forall (fun x => Rabs x <= r) v -> in_ball size v.
Proof.
  intros r size v Hr H L F. split; [exact L|]. apply norm_lt; [lra|]. pose proof (inner_bound r v Hr F). rewrite L in *. lra.
Qed.
Print Assumptions init_in_ball.
(** With the default range of 0.001: fewer than a million dimensions. *)
Example init_ex : INR 50 * (1 / 1000) ^ 2 < 1.
Proof. rewrite INR_IZR_INZ. cbn. lra. Qed.

(** A run of training steps on the relations of a model, with any learning rates and any nodes as negative samples. *)
Definition step : Type := (R * (list (nat * nat) * list (list nat)))%type.
Definition steps_run (neg size : nat) (reg eps : R) (X : list vec) (steps : list step) : list vec :=
  fold_left (fun Y st => match prepare neg (fst (snd st)) (snd (snd st)) with Ok ex => update_vectors_batch (fst st) reg eps size Y ex | Err _ => Y end) steps X.
Theorem training_in_ball : forall {K} `{EqDec K} (s : model K vec) neg size reg eps steps, wf s -> length (vectors s) = length (keys s) -> Forall (in_ball size) (vectors s) ->
  0 < eps < 1 -> INR size * eps < 2 * (1 - eps) ->
  Forall (fun st : step => incl (fst (snd st)) (rels s) /\ Forall (Forall (fun i => i < length (keys s))%nat) (snd (snd st))) steps ->
  length (steps_run neg size reg eps (vectors s) steps) = length (keys s) /\ Forall (in_ball size) (steps_run neg size reg eps (vectors s) steps).
Proof.
  intros K E s neg size reg eps steps W L F P D. revert L F. generalize (vectors s). intros X L F G. revert X L F. induction G as [|[lr [rs ns]] steps [G1 G2] G IH]; intros X L F; [split; assumption|]. unfold steps_run in *. cbn [fold_left fst snd] in *.
  destruct (prepare neg rs ns) as [ex|e] eqn:Pr; [|now apply IH]. assert (B0 : batch_ok X ex).
  { unfold prepare in Pr. destruct (_ =? _)%nat; [|discriminate]. injection Pr as <-. unfold batch_ok. apply Forall_forall. intros e He. apply in_map_iff in He. destruct He as ([[i j] l] & <- & He). cbn [fst snd]. pose proof (in_combine_l _ _ _ _ He) as H1. pose proof (in_combine_r _ _ _ _ He) as H2.
    apply G1 in H1. pose proof (w_rels s W) as Wr. rewrite Forall_forall in Wr, G2. specialize (Wr _ H1). specialize (G2 _ H2). cbn [fst snd] in Wr. rewrite L. split; [apply Wr|]. constructor; [apply Wr | exact G2]. }
  destruct (batch_in_ball lr reg eps size X ex P D F B0) as [F' _]. apply IH; [|exact F']. unfold update_vectors_batch. rewrite !apply_length. exact L.
Qed.
Print Assumptions training_in_ball.
