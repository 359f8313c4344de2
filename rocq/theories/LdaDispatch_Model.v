(** Distributed LDA: the dispatcher / worker protocol, as a transition system.

    Source: gensim/models/lda_dispatcher.py (Dispatcher.initialize 93-155,
    getjob 168-186, putjob 188-200, getstate 202-231, reset 233-248,
    jobdone 250-271), gensim/models/lda_worker.py (Worker.initialize 88-110,
    requestjob 112-139, processjob 141-157, getstate 164-180, reset 182-199)
    and the client loop gensim/models/ldamodel.py update 958-1028.

    Pyro's one-way calls are asynchronous: [requestjob] and [jobdone] return
    to the caller at once and run later, in a thread of the callee.  Every
    other call is synchronous.  A step below is one atomic action; any
    enabled step may happen next, so the relation covers every interleaving.

    Simplifications (each only adds behaviours, unless said otherwise):
    - a one-way [requestjob] call in transit, the loop of lines 127-133 and a
      blocked [jobs.get] are one token [ask w]; such a token may take a job
      even if [finished] was set after the test of line 128;
    - the statistics a worker accumulates ([LdaState.sstats], [numdocs]) are
      the list of the jobs whose E step went into them; [merge] (ldamodel.py
      178-191) concatenates.  Real addition is commutative, float addition is
      so up to rounding;
    - [do_estep] changes the state only after [inference] is through
      (ldamodel.py 741-743), so a failing job leaves no partial contribution;
      which jobs fail is the parameter [bad];
    - the time-outs (1 s in getjob, a year in putjob), the pings of getstate
      and the loss of a worker or of a message by the network are left out
      (the last removes behaviours: the protocol has no answer to it). *)

From Coq Require Import List Arith Bool.
Import ListNotations.

Definition job := nat.

Inductive phase : Type :=
| Fresh                            (* after Dispatcher.initialize *)
| Resetting (k : nat)              (* reset: the first k workers are done *)
| Running                          (* the client is between calls *)
| Putting (j : job)                (* putjob: counted, not yet in the queue *)
| Waiting                          (* getstate: the loop of lines 215-223 *)
| Merging (k : nat) (acc : list job) (* getstate: k workers merged *)
| Returned (acc : list job).       (* getstate has returned this *)

Record state : Type := mkSt {
  s_phase : phase;
  s_queue : list job;                    (* Dispatcher.jobs *)
  s_done : nat;                          (* Dispatcher._jobsdone *)
  s_recv : nat;                          (* Dispatcher._jobsreceived *)
  s_ask : list nat;                      (* pending or looping requestjob *)
  s_hold : list (nat * job);             (* popped, E step not finished *)
  s_pend : list nat;                     (* E step finished, jobdone not run *)
  s_states : list (option (list job));   (* Worker.model.state *)
  s_fin : list bool;                     (* Worker.finished *)
  (* history, read by no step *)
  s_put : list job                       (* arguments of putjob since the last reset *)
}.

(** [Dispatcher.initialize]: empty queue, zero counters; every worker has a
    fresh model (statistics zero) and is not finished. *)
Definition init (W : nat) : state :=
  mkSt Fresh [] 0 0 [] [] [] (repeat (Some []) W) (repeat false W) [].

Fixpoint set_nth {A} (l : list A) (k : nat) (x : A) : list A :=
  match l, k with
  | [], _ => []
  | _ :: t, 0 => x :: t
  | h :: t, S k' => h :: set_nth t k' x
  end.

(** queue.Queue: a bound of 0 means no bound. *)
Definition room (maxsize : nat) (q : list job) : bool :=
  (maxsize =? 0) || (length q <? maxsize).

(** May the client call [reset] now?  [aborts = true] also lets it give up
    an epoch it has put jobs into (as [update] does when it raises, e.g. at
    ldamodel.py 1010-1011, and is called again).  Without that, a reset
    follows [initialize], a [getstate], or a reset after which nothing was
    put (the end of a pass whose last chunk triggered an M step). *)
Definition may_reset (aborts : bool) (s : state) : bool :=
  match s_phase s with
  | Fresh => true
  | Returned _ => true
  | Running => aborts || match s_put s with [] => true | _ => false end
  | _ => false
  end.

Inductive step (maxsize : nat) (bad : job -> bool) (aborts : bool)
  : state -> state -> Prop :=
| st_reset : forall s,
    may_reset aborts s = true ->
    step maxsize bad aborts s
      (mkSt (Resetting 0) (s_queue s) (s_done s) (s_recv s) (s_ask s)
            (s_hold s) (s_pend s) (s_states s) (s_fin s) (s_put s))
| st_reset_worker : forall s k,
    s_phase s = Resetting k ->
    k < length (s_states s) ->
    step maxsize bad aborts s
      (mkSt (Resetting (S k)) (s_queue s) (s_done s) (s_recv s)
            (k :: s_ask s) (s_hold s) (s_pend s)
            (set_nth (s_states s) k (Some [])) (set_nth (s_fin s) k false)
            (s_put s))
| st_reset_end : forall s,
    s_phase s = Resetting (length (s_states s)) ->
    step maxsize bad aborts s
      (mkSt Running (s_queue s) 0 0 (s_ask s) (s_hold s) (s_pend s)
            (s_states s) (s_fin s) [])
| st_put : forall s j,
    s_phase s = Running ->
    step maxsize bad aborts s
      (mkSt (Putting j) (s_queue s) (s_done s) (S (s_recv s)) (s_ask s)
            (s_hold s) (s_pend s) (s_states s) (s_fin s) (s_put s ++ [j]))
| st_put_end : forall s j,
    s_phase s = Putting j ->
    room maxsize (s_queue s) = true ->
    step maxsize bad aborts s
      (mkSt Running (s_queue s ++ [j]) (s_done s) (s_recv s) (s_ask s)
            (s_hold s) (s_pend s) (s_states s) (s_fin s) (s_put s))
| st_getstate : forall s,
    s_phase s = Running ->
    step maxsize bad aborts s
      (mkSt Waiting (s_queue s) (s_done s) (s_recv s) (s_ask s) (s_hold s)
            (s_pend s) (s_states s) (s_fin s) (s_put s))
| st_wait : forall s,
    s_phase s = Waiting ->
    s_recv s <= s_done s ->
    step maxsize bad aborts s
      (mkSt (Merging 0 []) (s_queue s) (s_done s) (s_recv s) (s_ask s)
            (s_hold s) (s_pend s) (s_states s) (s_fin s) (s_put s))
| st_merge : forall s k acc l,
    s_phase s = Merging k acc ->
    nth_error (s_states s) k = Some (Some l) ->
    step maxsize bad aborts s
      (mkSt (Merging (S k) (acc ++ l)) (s_queue s) (s_done s) (s_recv s)
            (s_ask s) (s_hold s) (s_pend s) (set_nth (s_states s) k None)
            (set_nth (s_fin s) k true) (s_put s))
| st_return : forall s acc,
    s_phase s = Merging (length (s_states s)) acc ->
    step maxsize bad aborts s
      (mkSt (Returned acc) (s_queue s) (s_done s) (s_recv s) (s_ask s)
            (s_hold s) (s_pend s) (s_states s) (s_fin s) (s_put s))
(* the workers *)
| st_get : forall s a w b j q,
    s_ask s = a ++ w :: b ->
    s_queue s = j :: q ->
    step maxsize bad aborts s
      (mkSt (s_phase s) q (s_done s) (s_recv s) (a ++ b)
            ((w, j) :: s_hold s) (s_pend s) (s_states s) (s_fin s) (s_put s))
| st_stop : forall s a w b,
    s_ask s = a ++ w :: b ->
    nth_error (s_fin s) w = Some true ->
    step maxsize bad aborts s
      (mkSt (s_phase s) (s_queue s) (s_done s) (s_recv s) (a ++ b)
            (s_hold s) (s_pend s) (s_states s) (s_fin s) (s_put s))
| st_process : forall s a w j b l,
    s_hold s = a ++ (w, j) :: b ->
    bad j = false ->
    nth_error (s_states s) w = Some (Some l) ->
    step maxsize bad aborts s
      (mkSt (s_phase s) (s_queue s) (s_done s) (s_recv s) (s_ask s)
            (a ++ b) (w :: s_pend s)
            (set_nth (s_states s) w (Some (l ++ [j]))) (s_fin s) (s_put s))
| st_crash : forall s a w j b,
    s_hold s = a ++ (w, j) :: b ->
    (bad j = true \/ nth_error (s_states s) w = Some None) ->
    step maxsize bad aborts s
      (mkSt (s_phase s) (s_queue s) (s_done s) (s_recv s) (s_ask s)
            (a ++ b) (s_pend s) (s_states s) (s_fin s) (s_put s))
| st_done : forall s a w b,
    s_pend s = a ++ w :: b ->
    step maxsize bad aborts s
      (mkSt (s_phase s) (s_queue s) (S (s_done s)) (s_recv s) (w :: s_ask s)
            (s_hold s) (a ++ b) (s_states s) (s_fin s) (s_put s)).

Inductive reach (maxsize : nat) (bad : job -> bool) (aborts : bool) (W : nat)
  : state -> Prop :=
| reach_init : reach maxsize bad aborts W (init W)
| reach_step : forall s s', reach maxsize bad aborts W s ->
    step maxsize bad aborts s s' -> reach maxsize bad aborts W s'.

(** [steps]: any number of further steps. *)
Inductive steps (maxsize : nat) (bad : job -> bool) (aborts : bool)
  : state -> state -> Prop :=
| steps_refl : forall s, steps maxsize bad aborts s s
| steps_more : forall s s' s'', steps maxsize bad aborts s s' ->
    step maxsize bad aborts s' s'' -> steps maxsize bad aborts s s''.

(** The client: ldamodel.py update, lines 958-1028, with a dispatcher.
    [every] is [update_every * numworkers] (0 when update_every is 0, which
    is line 995's [if update_every and ...]).  One element of [passes] is the
    list of chunks of one pass; the corpus length is as announced (otherwise
    lines 1010-1011 raise after the last putjob: see [may_reset]). *)
Inductive call : Type := CReset | CPut (j : job) | CGetstate.

Fixpoint pass_loop (every chunk_no : nat) (dirty : bool) (chunks : list job)
  : list call :=
  match chunks with
  | [] => if dirty then [CGetstate] else []
  | c :: t =>
      if negb (every =? 0) && (S chunk_no mod every =? 0)
      then CPut c :: CGetstate :: CReset :: pass_loop every (S chunk_no) false t
      else CPut c :: pass_loop every (S chunk_no) true t
  end.

Definition update_calls (every : nat) (passes : list (list job)) : list call :=
  flat_map (fun chunks => CReset :: pass_loop every 0 false chunks) passes.

(** An executable scheduler used only to compute witnesses: a list of
    actions, each of which must be enabled. *)
Inductive act : Type :=
| AReset | AResetW | AResetEnd | APut (j : job) | APutEnd | AGetstate | AWait
| AMerge | AReturn | AGet (w : nat) | AStop (w : nat) | AProc (w : nat)
| ADone (w : nat).

Fixpoint take1 (w : nat) (l : list nat) : option (list nat * list nat) :=
  match l with
  | [] => None
  | x :: t => if x =? w then Some ([], t)
              else match take1 w t with
                   | Some (a, b) => Some (x :: a, b)
                   | None => None
                   end
  end.

Fixpoint take2 (w : nat) (l : list (nat * job))
  : option (list (nat * job) * job * list (nat * job)) :=
  match l with
  | [] => None
  | (x, j) :: t => if x =? w then Some ([], j, t)
                   else match take2 w t with
                        | Some (a, j', b) => Some ((x, j) :: a, j', b)
                        | None => None
                        end
  end.

Definition exec1 (maxsize : nat) (bad : job -> bool) (aborts : bool)
    (s : state) (a : act) : option state :=
  match a with
  | AReset =>
      if may_reset aborts s then
        Some (mkSt (Resetting 0) (s_queue s) (s_done s) (s_recv s) (s_ask s)
            (s_hold s) (s_pend s) (s_states s) (s_fin s) (s_put s))
      else None
  | AResetW =>
      match s_phase s with
      | Resetting k =>
          if k <? length (s_states s) then
            Some (mkSt (Resetting (S k)) (s_queue s) (s_done s) (s_recv s)
              (k :: s_ask s) (s_hold s) (s_pend s)
              (set_nth (s_states s) k (Some [])) (set_nth (s_fin s) k false)
              (s_put s))
          else None
      | _ => None
      end
  | AResetEnd =>
      match s_phase s with
      | Resetting k =>
          if k =? length (s_states s) then
            Some (mkSt Running (s_queue s) 0 0 (s_ask s) (s_hold s) (s_pend s)
              (s_states s) (s_fin s) [])
          else None
      | _ => None
      end
  | APut j =>
      match s_phase s with
      | Running =>
          Some (mkSt (Putting j) (s_queue s) (s_done s) (S (s_recv s)) (s_ask s)
            (s_hold s) (s_pend s) (s_states s) (s_fin s) (s_put s ++ [j]))
      | _ => None
      end
  | APutEnd =>
      match s_phase s with
      | Putting j =>
          if room maxsize (s_queue s) then
            Some (mkSt Running (s_queue s ++ [j]) (s_done s) (s_recv s) (s_ask s)
              (s_hold s) (s_pend s) (s_states s) (s_fin s) (s_put s))
          else None
      | _ => None
      end
  | AGetstate =>
      match s_phase s with
      | Running =>
          Some (mkSt Waiting (s_queue s) (s_done s) (s_recv s) (s_ask s) (s_hold s)
            (s_pend s) (s_states s) (s_fin s) (s_put s))
      | _ => None
      end
  | AWait =>
      match s_phase s with
      | Waiting =>
          if s_recv s <=? s_done s then
            Some (mkSt (Merging 0 []) (s_queue s) (s_done s) (s_recv s) (s_ask s)
              (s_hold s) (s_pend s) (s_states s) (s_fin s) (s_put s))
          else None
      | _ => None
      end
  | AMerge =>
      match s_phase s with
      | Merging k acc =>
          match nth_error (s_states s) k with
          | Some (Some l) =>
              Some (mkSt (Merging (S k) (acc ++ l)) (s_queue s) (s_done s) (s_recv s)
                (s_ask s) (s_hold s) (s_pend s) (set_nth (s_states s) k None)
                (set_nth (s_fin s) k true) (s_put s))
          | _ => None
          end
      | _ => None
      end
  | AReturn =>
      match s_phase s with
      | Merging k acc =>
          if k =? length (s_states s) then
            Some (mkSt (Returned acc) (s_queue s) (s_done s) (s_recv s) (s_ask s)
              (s_hold s) (s_pend s) (s_states s) (s_fin s) (s_put s))
          else None
      | _ => None
      end
  | AGet w =>
      match take1 w (s_ask s), s_queue s with
      | Some (a, b), j :: q =>
          Some (mkSt (s_phase s) q (s_done s) (s_recv s) (a ++ b)
            ((w, j) :: s_hold s) (s_pend s) (s_states s) (s_fin s) (s_put s))
      | _, _ => None
      end
  | AStop w =>
      match take1 w (s_ask s), nth_error (s_fin s) w with
      | Some (a, b), Some true =>
          Some (mkSt (s_phase s) (s_queue s) (s_done s) (s_recv s) (a ++ b)
            (s_hold s) (s_pend s) (s_states s) (s_fin s) (s_put s))
      | _, _ => None
      end
  | AProc w =>
      match take2 w (s_hold s) with
      | Some (a, j, b) =>
          match bad j, nth_error (s_states s) w with
          | true, _ | false, Some None =>
              Some (mkSt (s_phase s) (s_queue s) (s_done s) (s_recv s) (s_ask s)
                (a ++ b) (s_pend s) (s_states s) (s_fin s) (s_put s))
          | false, Some (Some l) =>
              Some (mkSt (s_phase s) (s_queue s) (s_done s) (s_recv s) (s_ask s)
                (a ++ b) (w :: s_pend s)
                (set_nth (s_states s) w (Some (l ++ [j]))) (s_fin s) (s_put s))
          | false, None => None
          end
      | None => None
      end
  | ADone w =>
      match take1 w (s_pend s) with
      | Some (a, b) =>
          Some (mkSt (s_phase s) (s_queue s) (S (s_done s)) (s_recv s) (w :: s_ask s)
            (s_hold s) (a ++ b) (s_states s) (s_fin s) (s_put s))
      | None => None
      end
  end.

Fixpoint exec (maxsize : nat) (bad : job -> bool) (aborts : bool)
    (s : state) (l : list act) : option state :=
  match l with
  | [] => Some s
  | a :: t => match exec1 maxsize bad aborts s a with
              | Some s' => exec maxsize bad aborts s' t
              | None => None
              end
  end.
