(** Model of distributed latent semantic indexing: gensim/models/lsi_dispatcher.py 124-147 ([initialize]), 160-177 ([getjob]), 179-191 ([putjob]), 193-219 ([getstate]),
    223-231 ([reset]), 233-254 ([jobdone]); lsi_worker.py 86-106 ([initialize]), 110-135 ([requestjob]), 138-151 ([processjob]), 155-167 ([getstate]), 171-175 ([reset]);
    lsimodel.py 486-521 (the order in which [add_documents] calls them).

    What a worker has learned is the list of the jobs it was given, in the order it processed them.  One-way calls are messages that arrive at any time later.  A worker
    runs any number of loops of [requestjob] at a time.  Simplifications: the states of the workers are taken at once (no job is left by then); polling an empty
    queue changes nothing; workers do not crash; the bound of the queue only delays [putjob]. *)
From Verif Require Import Base.

Section LsiDispatch.
Context {J : Type}.
Record worker : Type := Worker {
  learned : list J;
  finished : bool;
  loops : nat;        (* loops of requestjob that wait for a job *)
  busy : list J;      (* jobs that loops have got but not processed *)
  told : nat;         (* messages of jobdone on their way to the dispatcher *)
  asked : nat         (* messages of requestjob on their way to the worker *)
}.
Record world : Type := World { queue : list J; received : nat; done : nat; workers : list worker }.
(** lsi_worker.py [initialize]: nothing runs before the first [requestjob] *)
Definition worker0 : worker := Worker [] false 0 [] 0 0.
Definition initialize (n : nat) : result world := match n with 0 => Err RuntimeErr | _ => Ok (World [] 0 0 (repeat worker0 n)) end.

(** what a worker does by itself *)
Inductive acts : list J * nat * worker -> list J * nat * worker -> Prop :=
| Fetch j q d l f n b t a : acts (j :: q, d, Worker l f (S n) b t a) (q, d, Worker l f n (j :: b) t a)
| Stop q d l n b t a : acts (q, d, Worker l true (S n) b t a) (q, d, Worker l true n b t a)
| Process q d l f n b1 j b2 t a : acts (q, d, Worker l f n (b1 ++ j :: b2) t a) (q, d, Worker (l ++ [j]) f n (b1 ++ b2) (S t) a)
| JobDone q d l f n b t a : acts (q, d, Worker l f n b (S t) a) (q, S d, Worker l f n b t (S a))
| Request q d l f n b t a : acts (q, d, Worker l f n b t (S a)) (q, d, Worker l f (S n) b t a).
Inductive step : world -> world -> Prop :=
| Act q r d l1 x l2 q' d' x' : acts (q, d, x) (q', d', x') -> step (World q r d (l1 ++ x :: l2)) (World q' r d' (l1 ++ x' :: l2)).

(** what the model does *)
Definition reset_worker (x : worker) : worker := Worker [] false (loops x) (busy x) (told x) (S (asked x)).
Definition reset (w : world) : world := World (queue w) 0 0 (map reset_worker (workers w)).
Definition putjob (w : world) (j : J) : world := World (queue w ++ [j]) (S (received w)) (done w) (workers w).
Definition finish (x : worker) : worker := Worker (learned x) true (loops x) (busy x) (told x) (asked x).
(** None: still waiting *)
Definition getstate (w : world) : option (list (list J) * world) :=
  if done w <? received w then None else Some (map learned (workers w), World (queue w) (received w) (done w) (map finish (workers w))).
End LsiDispatch.
Arguments worker J : clear implicits.
Arguments world J : clear implicits.
