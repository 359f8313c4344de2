(** Model of one training epoch with threads: /repo/gensim/models/word2vec.py 1352-1409 ([_train_epoch]), 1101-1140
    ([_worker_loop]), 1203-1211 (the end of [_job_producer]) and 1253-1285 ([_log_epoch_progress]), as a transition system.

    The threads share two FIFO queues; [put] blocks on a full queue and [get] on an empty one ([queue.Queue]; a maximal size of 0 or
    less means no bound, here [None]).  Training one job is one step that yields its report or raises; callbacks are part of it.
    The corpus iterator may raise after some jobs.  Logging is left out. *)

From Verif Require Import Base.
Local Open Scope nat_scope.

Section Epoch.
Context {J Rep : Type}.
(** 1127-1134: the report of a job, or [None] if training it raises. *)
Variable train_job : J -> option Rep.
Variable job_cap progress_cap : option nat.

Inductive worker : Type :=
| WGet                        (* 1124: in [job_queue.get] *)
| WHave (j : J)               (* 1128-1136: training *)
| WPut (r : option Rep)       (* 1126, 1138: in [progress_queue.put] *)
| WDone                       (* 1127: left the loop *)
| WDead (j : J).              (* an exception left the thread *)

Record epoch : Type := mkE {
  e_todo : list (option J);      (* what the producer still has to put: the jobs, then one None per worker *)
  e_jobs : list (option J);      (* the job queue *)
  e_workers : list worker;
  e_progress : list (option Rep);(* the progress queue *)
  e_unfinished : nat;            (* 1256 *)
  e_reports : list Rep           (* the reports counted so far (1265-1270) *)
}.

Definition room {A} (cap : option nat) (q : list A) : bool := match cap with Some c => length q <? c | None => true end.

Inductive estep : epoch -> epoch -> Prop :=
| s_produce : forall x todo q ws pq u got, room job_cap q = true ->
    estep (mkE (x :: todo) q ws pq u got) (mkE todo (q ++ [x]) ws pq u got)
| s_take_job : forall todo j q ws1 ws2 pq u got,
    estep (mkE todo (Some j :: q) (ws1 ++ WGet :: ws2) pq u got) (mkE todo q (ws1 ++ WHave j :: ws2) pq u got)
| s_take_none : forall todo q ws1 ws2 pq u got,
    estep (mkE todo (None :: q) (ws1 ++ WGet :: ws2) pq u got) (mkE todo q (ws1 ++ WPut None :: ws2) pq u got)
| s_train : forall todo q ws1 j r ws2 pq u got, train_job j = Some r ->
    estep (mkE todo q (ws1 ++ WHave j :: ws2) pq u got) (mkE todo q (ws1 ++ WPut (Some r) :: ws2) pq u got)
| s_die : forall todo q ws1 j ws2 pq u got, train_job j = None ->
    estep (mkE todo q (ws1 ++ WHave j :: ws2) pq u got) (mkE todo q (ws1 ++ WDead j :: ws2) pq u got)
| s_report : forall todo q ws1 r ws2 pq u got, room progress_cap pq = true ->
    estep (mkE todo q (ws1 ++ WPut (Some r) :: ws2) pq u got) (mkE todo q (ws1 ++ WGet :: ws2) (pq ++ [Some r]) u got)
| s_finish : forall todo q ws1 ws2 pq u got, room progress_cap pq = true ->
    estep (mkE todo q (ws1 ++ WPut None :: ws2) pq u got) (mkE todo q (ws1 ++ WDone :: ws2) (pq ++ [None]) u got)
| s_count : forall todo q ws r pq u got,
    estep (mkE todo q ws (Some r :: pq) (S u) got) (mkE todo q ws pq (S u) (got ++ [r]))
| s_worker_end : forall todo q ws pq u got,
    estep (mkE todo q ws (None :: pq) (S u) got) (mkE todo q ws pq u got).

Inductive esteps : epoch -> epoch -> Prop :=
| es_refl : forall s, esteps s s
| es_step : forall s s' s'', esteps s s' -> estep s' s'' -> esteps s s''.

(** 1385-1403; [raised] if the corpus iterator raised after these jobs: then no Nones are put. *)
Definition epoch_init (workers : nat) (jobs : list J) (raised : bool) : epoch :=
  mkE (map Some jobs ++ if raised then [] else repeat None workers) [] (repeat WGet workers) [] workers [].
(** 1258: the main thread leaves its loop. *)
Definition epoch_over (s : epoch) : Prop := e_unfinished s = 0.
End Epoch.
Arguments worker : clear implicits.
Arguments epoch : clear implicits.

(** 1385-1386: the bounds of the two queues. *)
Definition queue_bound (n : nat) : option nat := match n with 0 => None | _ => Some n end.
Definition job_bound (queue_factor workers : nat) : option nat := queue_bound (queue_factor * workers).
Definition progress_bound (queue_factor workers : nat) : option nat := queue_bound ((queue_factor + 1) * workers).
