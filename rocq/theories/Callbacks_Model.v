(** Model of the metrics of topic models: /repo/gensim/models/callbacks.py 129-132 (`Metric.__str__`), 477-492 (`Callback.set_model`), 515-568 (`on_epoch_end`), and their use in
    /repo/gensim/models/ldamodel.py 951-956, 958-1028 (`LdaModel.update`: which model the metrics see).

    Simplifications: a metric is its label, whether it compares with the previous model (DiffMetric, ConvergenceMetric), whether it is drawn (logger 'visdom'), whether its value has
    dimensions, and its value as a function of the model and the previous model.  Visdom is installed; a window holds the values that are drawn.  Logging to the shell
    is left out; one worker.  `Queue.get` of an empty queue waits for ever; the model raises EOFErr there. *)
From Verif Require Import Base Str.

Section Callbacks.
Context {Model V : Type}.
Record metric : Type := Metric { m_label : pystr; m_compares : bool; m_drawn : bool; m_array : bool; m_value : Model -> option Model -> V }.
(** [c_queue]: None if the attribute does not exist *)
Record callback : Type := CB { c_metrics : list metric; c_previous : option Model; c_queue : option (list (list V)); c_windows : list (list V) }.

Definition any_compares (ms : list metric) : bool := existsb m_compares ms.
(** 477-492 *)
Definition set_model (ms : list metric) (model : Model) : callback :=
  if any_compares ms then CB ms (Some model) (Some []) [] else CB ms None None [].
Fixpoint set_at {A} (l : list A) (i : nat) (x : A) : list A := match l, i with [], _ => [] | _ :: l', O => x :: l' | y :: l', S i' => y :: set_at l' i' x end.
(** 533-561: drawing a value *)
Definition draw (epoch i : nat) (m : metric) (value : V) (q : option (list (list V))) (ws : list (list V)) : result (option (list (list V)) * list (list V)) :=
  if negb (m_drawn m) then Ok (q, ws) else
  if Nat.eqb epoch 0 then
    if m_array m then match q with None => Err AttributeErr | Some q => Ok (Some (q ++ [[value]]), ws ++ [[value]]) end
    else Ok (q, ws ++ [[value]])
  else
    if m_array m then
      match q with
      | None => Err AttributeErr
      | Some [] => Err EOFErr
      | Some (old :: q') =>
          let diff_mat := old ++ [value] in
          match nth_error ws i with None => Err IndexError | Some _ => Ok (Some (q' ++ [diff_mat]), set_at ws i diff_mat) end
      end
    else match nth_error ws i with None => Err IndexError | Some w => Ok (q, set_at ws i (w ++ [value])) end.
(** 523-561 *)
Fixpoint epoch_loop (epoch i : nat) (ms : list metric) (model : Model) (prev : option Model) (cur : dict pystr V) (q : option (list (list V))) (ws : list (list V))
  : result (dict pystr V * option (list (list V)) * list (list V)) :=
  match ms with
  | [] => Ok (cur, q, ws)
  | m :: ms' =>
    let value := m_value m model prev in
    let* qw := draw epoch i m value q ws in
    epoch_loop epoch (S i) ms' model prev (dset cur (m_label m) value) (fst qw) (snd qw)
  end.
Definition on_epoch_end (c : callback) (epoch : nat) (model : Model) : result (dict pystr V * callback) :=
  let* r := epoch_loop epoch 0 (c_metrics c) model (c_previous c) [] (c_queue c) (c_windows c) in
  let '(cur, q, ws) := r in
  Ok (cur, CB (c_metrics c) (if any_compares (c_metrics c) then Some model else c_previous c) q ws).
(** ldamodel.py 1015-1018: [models] are the model after each pass *)
Definition keep (hist : dict pystr (list V)) (cur : dict pystr V) : dict pystr (list V) := fold_left (fun h kv => dset h (fst kv) (dget_or h (fst kv) [] ++ [snd kv])) cur hist.
Fixpoint passes (epoch : nat) (models : list Model) (c : callback) (hist : dict pystr (list V)) : result (dict pystr (list V) * callback) :=
  match models with
  | [] => Ok (hist, c)
  | model :: rest => let* r := on_epoch_end c epoch model in passes (S epoch) rest (snd r) (keep hist (fst r))
  end.
Definition update (ms : list metric) (start : Model) (models : list Model) : result (dict pystr (list V) * callback) := passes 0 models (set_model ms start) [].

(** ldamodel.py 967-1028: a pass.  [step] is an M step for the chunks since the last one.  The metrics see the model before the M step for the remaining chunks. *)
Context {Chunk : Type}.
Variable step : Model -> list Chunk -> Model.
Fixpoint pass_loop (update_every chunk_no : nat) (chunks pending : list Chunk) (model : Model) : Model * list Chunk :=
  match chunks with
  | [] => (model, pending)
  | c :: rest =>
      if (negb (Nat.eqb update_every 0) && Nat.eqb (Nat.modulo (chunk_no + 1) update_every) 0)%bool
      then pass_loop update_every (S chunk_no) rest [] (step model (pending ++ [c]))
      else pass_loop update_every (S chunk_no) rest (pending ++ [c]) model
  end.
(** The model that the metrics see, and the model after the pass *)
Definition one_pass (update_every : nat) (chunks : list Chunk) (model : Model) : Model * Model :=
  let (seen, pending) := pass_loop update_every 0 chunks [] model in
  (seen, match pending with [] => seen | _ => step seen pending end).
Fixpoint seen_models (update_every : nat) (chunks : list Chunk) (n : nat) (model : Model) : list Model :=
  match n with O => [] | S n' => let (seen, after) := one_pass update_every chunks model in seen :: seen_models update_every chunks n' after end.
Fixpoint after_passes (update_every : nat) (chunks : list Chunk) (n : nat) (model : Model) : list Model :=
  match n with O => [] | S n' => let (_, after) := one_pass update_every chunks model in after :: after_passes update_every chunks n' after end.
Definition train (ms : list metric) (update_every : nat) (chunks : list Chunk) (n : nat) (model : Model) : result (dict pystr (list V) * callback) :=
  update ms model (seen_models update_every chunks n model).
End Callbacks.
Arguments metric : clear implicits.
Arguments callback : clear implicits.
