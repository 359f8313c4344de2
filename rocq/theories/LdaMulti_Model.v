(** Model of one pass of /repo/gensim/models/ldamulticore.py ([LdaMulticore.update] 187-316, [worker_e_step] 319-345): the master and its worker processes.

    A chunk is a list of documents.  A state of the program has the chunks that are still to be read, the job queue, the chunks that
    workers are busy with, the results on their way to the result queue ([multiprocessing.Queue] hands an object over in a thread of its own, so
    [empty()] may still be true), the results that the master can see, the chunks merged into [other] since it was reset, and the
    counter [queue_size].  [m_steps] (the chunks of every M step) and [lost] (the chunks whose worker failed) are history that no step reads.  What a
    worker computes from a chunk is in LdaTrain_Model; with which version of the model it does so is not modelled, nor is the
    evaluation of perplexity. *)
From Verif Require Import Base.
From Coq Require Import Relations.
Local Open Scope nat_scope.

Section Multi.
Context {A : Type}.
Notation chunk := (list A).
Definition docs (cs : list chunk) : nat := length (concat cs).

(** What the master does after it has cleared the result queue. *)
Inductive after : Type := Again (c : chunk) | NextChunk | WaitMore.
Inductive place : Type := Reading | Putting (c : chunk) | Clearing (force merged_new : bool) (k : after) | Waiting | Finished.
Record ms : Type := MS {
  todo : list chunk; jobq : list chunk; busy : list chunk; transit : list chunk; resq : list chunk;
  other : list chunk; queue_size : Z; m_steps : list (list chunk); lost : list chunk; pc : place
}.
(** 281-283 *)
Definition start (chunks : list chunk) : ms := MS chunks [] [] [] [] [] 0 [] [] Reading.
Definition next (k : after) : place := match k with Again c => Putting c | NextChunk => Reading | WaitMore => Waiting end.

(** [update_after]: 228-233; [workers] processes; the job queue holds [2 * workers] jobs (252). *)
Variables workers update_after : nat.
Inductive step : ms -> ms -> Prop :=
(** 286-287 *)
| read : forall c t j b x r o q m l, step (MS (c :: t) j b x r o q m l Reading) (MS t j b x r o q m l (Putting c))
(** 308: the end of the stream *)
| read_end : forall j b x r o q m l, step (MS [] j b x r o q m l Reading) (MS [] j b x r o q m l Waiting)
(** 292-299, 305 *)
| put : forall t j b x r o q m l c, length j < 2 * workers -> step (MS t j b x r o q m l (Putting c)) (MS t (j ++ [c]) b x r o (q + 1) m l (Clearing false false NextChunk))
(** 300-303 *)
| full : forall t j b x r o q m l c, ~ length j < 2 * workers -> step (MS t j b x r o q m l (Putting c)) (MS t j b x r o q m l (Clearing false false (Again c)))
(** 268-271 *)
| get : forall t j b x c r o q m l f n k, step (MS t j b x (c :: r) o q m l (Clearing f n k)) (MS t j b x r (o ++ [c]) (q - 1) m l (Clearing f true k))
(** 268, 273-275 *)
| cleared : forall t j b x o q m l f n k,
    step (MS t j b x [] o q m l (Clearing f n k))
      (if (f && n && (q =? 0)%Z) || (update_after <=? docs o) then MS t j b x [] [] q (m ++ [o]) l (next k) else MS t j b x [] o q m l (next k))
(** 309-310 *)
| wait : forall t j b x r o q m l, (0 < q)%Z -> step (MS t j b x r o q m l Waiting) (MS t j b x r o q m l (Clearing true false WaitMore))
| finish : forall t j b x r o q m l, ~ (0 < q)%Z -> step (MS t j b x r o q m l Waiting) (MS t j b x r o q m l Finished)
(** 335 *)
| take : forall t c j b x r o q m l p, length b < workers -> step (MS t (c :: j) b x r o q m l p) (MS t j (b ++ [c]) x r o q m l p)
(** 337-343 *)
| reply : forall t j b1 c b2 x r o q m l p, step (MS t j (b1 ++ c :: b2) x r o q m l p) (MS t j (b1 ++ b2) (x ++ [c]) r o q m l p)
| arrive : forall t j b x1 c x2 r o q m l p, step (MS t j b (x1 ++ c :: x2) r o q m l p) (MS t j b (x1 ++ x2) (r ++ [c]) o q m l p).
(** An exception in [do_estep] (340) ends the worker; the pool starts a new one, and nobody hears of the job again. *)
Inductive fail_step : ms -> ms -> Prop :=
| normal : forall s s', step s s' -> fail_step s s'
| fail : forall t j b1 c b2 x r o q m l p, fail_step (MS t j (b1 ++ c :: b2) x r o q m l p) (MS t j (b1 ++ b2) x r o q m (l ++ [c]) p).
Definition runs : ms -> ms -> Prop := clos_refl_trans_1n _ step.
Definition fail_runs : ms -> ms -> Prop := clos_refl_trans_1n _ fail_step.
End Multi.
